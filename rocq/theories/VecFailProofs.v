(** Vectors over an allocator that may refuse requests. *)
From Verif Require Import Base VectorModel VectorSpec VectorProofs VecProg VectorWorld VectorExtra VecFailModel.

Section VecFailProofs.
Context {A : Type} (triv : bool) (fail : nat -> bool).
Notation mem := (mem A).
Notation world := (world A).
Notation sworld := (gmap nat (lvec A)).

(** *** An allocator that never refuses *)
Lemma f_resize_eq n v (m : mem) :
  n = 0 \/ fail (m_next m) = false -> f_resize triv fail n v m = v_resize triv n v m.
Proof.
  intros H. unfold f_resize, v_resize. destruct (Nat.eqb_spec n 0) as [->|Hn]; [reflexivity|].
  destruct H as [H|H]; [lia|].
  erewrite bind_ok by (unfold f_alloc; rewrite H; reflexivity).
  etransitivity; [|symmetry; eapply bind_ok; reflexivity]. reflexivity.
Qed.

Lemma f_resize_fill_eq n x v (m : mem) :
  n = 0 \/ fail (m_next m) = false -> f_resize_fill triv fail n x v m = v_resize_fill triv n x v m.
Proof.
  intros H. unfold f_resize_fill, v_resize_fill. destruct (Nat.eqb_spec n 0) as [->|Hn].
  { apply f_resize_eq. auto. }
  destruct H as [H|H]; [lia|].
  erewrite bind_ok by (unfold f_alloc; rewrite H; reflexivity).
  etransitivity; [|symmetry; eapply bind_ok; reflexivity]. reflexivity.
Qed.

Lemma bind_ext1 {S X Y} (f g : M S X) (k : X -> M S Y) s : f s = g s -> bind f k s = bind g k s.
Proof. intros H. unfold bind. rewrite H. reflexivity. Qed.
Lemma bind_ext2 {S X Y} (f : M S X) (k k' : X -> M S Y) s :
  (forall x s', k x s' = k' x s') -> bind f k s = bind f k' s.
Proof. intros H. unfold bind. destruct (f s) as [[x s']| | |]; auto. Qed.
Lemma lift_ext {X} (f g : M mem X) (w : world) : f (w_mem w) = g (w_mem w) -> lift f w = lift g w.
Proof. intros H. unfold lift. rewrite H. reflexivity. Qed.

Section Never.
Context (Hnever : forall n, fail n = false).
Lemma nv_resize n v (m : mem) : f_resize triv fail n v m = v_resize triv n v m.
Proof. apply f_resize_eq. auto. Qed.
Lemma nv_fill n x (m : mem) : f_fill triv fail n x m = v_fill triv n x m.
Proof. unfold f_fill, v_fill. apply bind_ext2. intros _ m1. apply bind_ext1, nv_resize. Qed.
Lemma nv_copy v u (m : mem) : f_copy_assign triv fail v u m = v_copy_assign triv v u m.
Proof. unfold f_copy_assign, v_copy_assign. apply bind_ext2. intros v0 m1. apply bind_ext1, nv_resize. Qed.
Lemma nv_push x v (m : mem) : f_push_back triv fail x v m = v_push_back triv x v m.
Proof.
  unfold f_push_back, v_push_back. apply bind_ext1.
  destruct (v_cap v <? v_size v + 1); [|reflexivity]. destruct (negb (v_size v =? 0)); apply nv_resize.
Qed.
Lemma nv_pop v (m : mem) : f_pop_back triv fail v m = v_pop_back triv v m.
Proof.
  unfold f_pop_back, v_pop_back. apply bind_ext2. intros _ m1. apply bind_ext2. intros _ m2.
  destruct (v_size v - 1 <? v_cap v / 3); [apply nv_resize|reflexivity].
Qed.
Lemma nv_step o (w : world) : f_step triv fail o w = v_step triv o w.
Proof.
  destruct o; cbn [f_step v_step]; try reflexivity; apply bind_ext2; intros ? ?.
  - apply bind_ext1, lift_ext, nv_fill.
  - apply bind_ext2; intros ? ?. apply bind_ext1, lift_ext, nv_copy.
  - apply bind_ext2; intros ? ?. destruct (id =? src); [reflexivity|]. apply bind_ext1, lift_ext, nv_copy.
  - apply bind_ext1, lift_ext, nv_push.
  - apply bind_ext1, lift_ext, nv_pop.
  - apply bind_ext1, lift_ext, nv_resize.
  - apply bind_ext1, lift_ext, f_resize_fill_eq. auto.
Qed.
Lemma nw_step o (w : world) : fw_step triv fail o w = w_step triv o w.
Proof.
  destruct o as [o|id|id src i]; cbn [fw_step w_step]; [apply nv_step|reflexivity|].
  do 3 (apply bind_ext2; intros ? ?). destruct (_ <? 0)%Z; [reflexivity|].
  apply bind_ext1, lift_ext, nv_push.
Qed.
Lemma never_refused {X} (p : wprog A X) : forall w, fwrun triv fail p w = wrun triv p w.
Proof.
  induction p as [x| | | |o k IH]; intros w; simpl; try reflexivity.
  etransitivity; [apply bind_ext1, nw_step|]. apply bind_ext2. intros x s'. apply IH.
Qed.
End Never.

(** *** Vectors whose last resize was refused while they were empty *)
Definition hollow (v : vec) : Prop := v_size v = 0 /\ v_ptr v = None.
Definition frep (m : mem) (v : vec) (l : list A) : Prop := vrep m v l \/ (l = [] /\ hollow v).
Definition fpost (m : mem) (v : vec) (m' : mem) (v' : vec) (l' : list A) (c : nat) : Prop :=
  frep m' v' l' /\ v_cap v' = c /\ mem_ok m' /\ rest m' v' = rest m v /\ m_leaked m' = m_leaked m.

Lemma vpost_fpost m v m' v' l' c k : vpost m v m' v' l' c k -> fpost m v m' v' l' c.
Proof. intros (?&?&?&?&?&?). unfold fpost. split_and!; auto. left. assumption. Qed.
Lemma fpost_trans m v m1 v1 l1 c1 m2 v2 l2 c2 :
  fpost m v m1 v1 l1 c1 -> fpost m1 v1 m2 v2 l2 c2 -> fpost m v m2 v2 l2 c2.
Proof. intros (?&?&?&?&?) (?&?&?&?&?). unfold fpost. split_and!; auto; congruence. Qed.
Lemma fpost_refl m v l : frep m v l -> mem_ok m -> fpost m v m v l (v_cap v).
Proof. intros. unfold fpost. split_and!; auto. Qed.
Lemma frep_size m v l : frep m v l -> v_size v = length l.
Proof. intros [H|(-> & H & _)]; [apply (vrep_size _ _ _ H)|exact H]. Qed.
Lemma frep_nonempty m v l : frep m v l -> l <> [] -> vrep m v l.
Proof. intros [H|(-> & _)]; [auto|congruence]. Qed.
Lemma frep_frame m v m' v' u l :
  rest m' v' = rest m v -> frep m u l ->
  (forall b, v_ptr u = Some b -> v_ptr v <> Some b) ->
  frep m' u l /\ (forall b, v_ptr u = Some b -> v_ptr v' <> Some b).
Proof.
  intros Hrest [Hu|(-> & Hs & Hp)] Hsep.
  - destruct (vrep_frame _ _ _ _ _ _ Hrest Hu Hsep). split; [left|]; assumption.
  - split; [right; split; [reflexivity|split; assumption]|congruence].
Qed.

(** The call crashed for want of memory, or it did its job. *)
Definition fok (m : mem) (v : vec) (l : list A) (c : nat) (r : res (vec * mem)) : Prop :=
  r = Abort \/ exists v' m', r = Ok (v', m') /\ fpost m v m' v' l c.

Lemma f_resize_vrep n v l m :
  vrep m v l -> mem_ok m -> fok m v (take n l) n (f_resize triv fail n v m).
Proof.
  intros Hr Hok. destruct (decide (n = 0 \/ fail (m_next m) = false)) as [H|H].
  { rewrite (f_resize_eq _ _ _ H). destruct (v_resize_ok triv n v l m Hr Hok) as (v' & m' & Hrun & Hp).
    right. do 2 eexists. split; [exact Hrun|]. eapply vpost_fpost, Hp. }
  assert (Hn : n <> 0) by tauto.
  assert (Hf : fail (m_next m) = true) by (destruct (fail (m_next m)); tauto). clear H.
  pose proof Hr as (Hs & Hc & Hp).
  unfold f_resize. destruct (Nat.eqb_spec n 0); [lia|].
  set (m1 := Mem (m_blocks m) (S (m_next m)) (m_leaked m) (m_ctor m)).
  assert (Hal : f_alloc fail n m = Ok (None, m1)).
  { unfold f_alloc. rewrite Hf. reflexivity. }
  assert (Hok1 : mem_ok m1).
  { intros b Hb. simpl in *. specialize (Hok b Hb). lia. }
  unfold fok. erewrite bind_ok by exact Hal.
  destruct l as [|a l].
  - simpl in Hs. rewrite <- Hs, take_nil. right. destruct (v_ptr v) as [b|] eqn:Hb.
    + destruct Hp as [Hc0 Hcs]. destruct (Nat.eqb_spec (v_cap v) 0); [lia|]. cbn [negb dassert].
      assert (Hd : dealloc b (v_cap v) m1 =
        Ok (tt, Mem (delete b (m_blocks m)) (S (m_next m)) (m_leaked m) (m_ctor m))).
      { unfold dealloc. simpl. rewrite Hcs, cells_length by (simpl; lia). rewrite Nat.eqb_refl.
        rewrite live_count_cells. simpl. rewrite Nat.add_0_r. reflexivity. }
      do 2 eexists. split.
      { rewrite bind_assoc, bind_ret. erewrite bind_ok; cycle 1.
        { simpl. rewrite bind_ret. exact Hd. }
        reflexivity. }
      unfold fpost. split_and!; simpl; auto.
      * right. split; [reflexivity|]. split; [|reflexivity]. destruct (n <? 0) eqn:E; simpl; [apply Nat.ltb_lt in E; lia|reflexivity].
      * intros b' Hb'. simpl in *. destruct (decide (b = b')) as [->|Hne].
        { rewrite lookup_delete in Hb'. destruct Hb'; discriminate. }
        rewrite lookup_delete_ne in Hb' by assumption. specialize (Hok b' Hb'). lia.
      * unfold rest. rewrite Hb. reflexivity.
    + do 2 eexists. split; [rewrite bind_ret; reflexivity|].
      unfold fpost. split_and!; simpl; auto.
      * right. split; [reflexivity|]. split; [|reflexivity]. destruct (n <? 0) eqn:E; simpl; [apply Nat.ltb_lt in E; lia|reflexivity].
      * unfold rest. rewrite Hb. reflexivity.
  - left. destruct (vrep_ptr _ _ _ Hr) as (b & Hb & Hcs); [discriminate|]. rewrite Hb in Hp |- *.
    destruct Hp as [Hc0 _]. destruct (Nat.eqb_spec (v_cap v) 0); [lia|]. cbn [negb dassert].
    apply bind_abort. rewrite bind_ret. apply bind_abort. rewrite <- Hs. simpl.
    destruct n; [lia|]. simpl. apply bind_abort, bind_abort.
    assert (Hld : load (Some b) 0 m1 = Ok (a, m1)).
    { unfold load. simpl. rewrite Hcs. reflexivity. }
    erewrite bind_ok by exact Hld. reflexivity.
Qed.

Lemma f_resize_ok n v l m :
  frep m v l -> mem_ok m -> fok m v (take n l) n (f_resize triv fail n v m).
Proof.
  intros [Hr|(-> & Hs & Hp)] Hok; [apply f_resize_vrep; assumption|].
  pose proof (f_resize_vrep n v_empty [] m (vrep_empty m) Hok) as H.
  assert (E : f_resize triv fail n v m = f_resize triv fail n v_empty m).
  { unfold f_resize. rewrite Hs, Hp. reflexivity. }
  rewrite E. unfold fok, fpost, rest in *. rewrite Hp. exact H.
Qed.

(** Filling storage that was refused crashes on the first element. *)
Lemma fill_null (x : arg A) a k m :
  k <> 0 -> read_arg x m = Ok (a, m) ->
  for_range 0 k (fun i => a <- read_arg x ;; construct None i a) m = Abort.
Proof.
  intros Hk Hx. destruct k; [lia|]. simpl. apply bind_abort. erewrite bind_ok by exact Hx. reflexivity.
Qed.

Lemma f_fill_ok n a m :
  n <> 0 -> mem_ok m -> fok m v_empty (replicate n a) n (f_fill triv fail n (AVal a) m).
Proof.
  intros Hn Hok. unfold f_fill, fok. destruct (Nat.eqb_spec n 0); [lia|]. cbn [negb dassert]. rewrite bind_ret.
  destruct (f_resize_vrep n v_empty [] m (vrep_empty m) Hok) as [H|(v1 & m1 & Hrun & Hpost)].
  { left. apply bind_abort, H. }
  rewrite take_nil in Hpost. erewrite bind_ok by exact Hrun.
  pose proof Hpost as ([Hr1|(_ & Hs1 & Hp1)] & Hc1 & Hok1 & _).
  - destruct (fill_loop a v1 n [] m1 Hr1 Hok1 ltac:(simpl; lia)) as (m2 & Hf & Hpost2).
    simpl in Hf. erewrite bind_ok by exact Hf. right. do 2 eexists. split; [reflexivity|].
    simpl in Hpost2. rewrite Hc1 in Hpost2.
    eapply fpost_trans; [exact Hpost|]. eapply vpost_fpost, Hpost2.
  - left. rewrite Hp1. apply bind_abort. apply (fill_null _ a); [exact Hn|reflexivity].
Qed.

Lemma f_resize_fill_ok n a v l m :
  frep m v l -> mem_ok m ->
  fok m v (take n l ++ replicate (n - length l) a) n (f_resize_fill triv fail n (AVal a) v m).
Proof.
  intros Hr Hok. destruct (Nat.eqb_spec n 0) as [->|Hn].
  { simpl. apply (f_resize_ok 0 v l m Hr Hok). }
  assert (Hh : l = [] \/ l <> []) by (destruct l; auto).
  pose proof (frep_size _ _ _ Hr) as Hsz.
  destruct (fail (m_next m)) eqn:Hf.
  - left. unfold f_resize_fill. destruct (Nat.eqb_spec n 0); [lia|].
    set (m1 := Mem (m_blocks m) (S (m_next m)) (m_leaked m) (m_ctor m)).
    assert (Hal : f_alloc fail n m = Ok (None, m1)).
    { unfold f_alloc. rewrite Hf. reflexivity. }
    erewrite bind_ok by exact Hal. rewrite Hsz.
    destruct l as [|x l].
    + simpl length. rewrite Nat.sub_0_r.
      assert (H2 : exists m2, (match v_ptr v with
        | Some oldb => for_range 0 0 (fun i =>
            (if Nat.ltb i n then (a <- load (Some oldb) i ;; construct None i a) else ret tt) ;;;
            destroy triv (Some oldb) i) ;;; dealloc oldb (v_cap v)
        | None => ret tt end) m1 = Ok (tt, m2)).
      { destruct Hr as [(Hs & Hc & Hp)|(_ & _ & Hp)].
        - destruct (v_ptr v) as [b|]; [|eexists; reflexivity]. destruct Hp as [Hc0 Hcs].
          simpl. eexists. rewrite bind_ret. unfold dealloc. simpl.
          rewrite Hcs, cells_length by (simpl; lia). rewrite Nat.eqb_refl. reflexivity.
        - rewrite Hp. eexists. reflexivity. }
      destruct H2 as [m2 H2]. erewrite bind_ok by exact H2. apply bind_abort.
      apply (fill_null _ a); [exact Hn|reflexivity].
    + apply (frep_nonempty) in Hr; [|discriminate].
      destruct (vrep_ptr _ _ _ Hr) as (b & Hb & Hcs); [discriminate|]. rewrite Hb.
      apply bind_abort, bind_abort. simpl. destruct n; [lia|]. simpl. apply bind_abort, bind_abort.
      assert (Hld : load (Some b) 0 m1 = Ok (x, m1)).
      { unfold load. simpl. rewrite Hcs. reflexivity. }
      erewrite bind_ok by exact Hld. reflexivity.
  - rewrite f_resize_fill_eq by auto. right. destruct Hr as [Hr|(-> & Hs & Hp)].
    + destruct (v_resize_fill_ok triv n a v l m Hr Hok) as (v' & m' & Hrun & Hpost).
      do 2 eexists. split; [exact Hrun|]. eapply vpost_fpost, Hpost.
    + destruct (v_resize_fill_ok triv n a v_empty [] m (vrep_empty m) Hok) as (v' & m' & Hrun & Hpost).
      assert (E : v_resize_fill triv n (AVal a) v m = v_resize_fill triv n (AVal a) v_empty m).
      { unfold v_resize_fill. rewrite Hs, Hp. destruct (Nat.eqb_spec n 0); [lia|reflexivity]. }
      rewrite E. do 2 eexists. split; [exact Hrun|]. apply vpost_fpost in Hpost.
      unfold fpost, rest in *. rewrite Hp. exact Hpost.
Qed.

Lemma f_push_back_gen x a v l m :
  frep m v l -> mem_ok m ->
  (forall m1 v1 c, fpost m v m1 v1 l c -> read_arg x m1 = Ok (a, m1)) ->
  fok m v (l ++ [a]) (grow (length l) (v_cap v)) (f_push_back triv fail x v m).
Proof.
  intros Hr Hok Hx. unfold f_push_back, grow. rewrite (frep_size _ _ _ Hr).
  assert (H1 : fok m v l (if v_cap v <? length l + 1 then if length l =? 0 then 2 else 2 * length l else v_cap v)
    ((if v_cap v <? length l + 1
     then if negb (length l =? 0) then f_resize triv fail (2 * length l) v else f_resize triv fail 2 v
     else ret v) m)).
  { destruct (Nat.ltb_spec (v_cap v) (length l + 1)).
    - destruct (Nat.eqb_spec (length l) 0) as [Hl|Hl]; simpl negb; cbn iota.
      + pose proof (f_resize_ok 2 v l m Hr Hok) as H2. rewrite take_ge in H2 by lia. exact H2.
      + pose proof (f_resize_ok (2 * length l) v l m Hr Hok) as H2. rewrite take_ge in H2 by lia. exact H2.
    - right. do 2 eexists. split; [reflexivity|]. apply fpost_refl; assumption. }
  destruct H1 as [H1|(v1 & m1 & Hrun & Hpost)]; [left; apply bind_abort, H1|].
  unfold fok. erewrite bind_ok by exact Hrun.
  erewrite bind_ok by (eapply Hx; exact Hpost).
  pose proof Hpost as ([Hr1|(-> & Hs1 & Hp1)] & Hc1 & Hok1 & _).
  - right. destruct (construct_ok m1 v1 l a Hr1 Hok1) as (m2 & Hcons & Hpost2).
    { pose proof (vrep_cap _ _ _ Hr1). rewrite Hc1 in *. destruct (Nat.ltb_spec (v_cap v) (length l + 1)); [|lia].
      destruct (Nat.eqb_spec (length l) 0); lia. }
    erewrite bind_ok by exact Hcons. do 2 eexists. split; [reflexivity|].
    rewrite Hc1 in Hpost2 |- *. eapply fpost_trans; [exact Hpost|]. eapply vpost_fpost, Hpost2.
  - left. apply bind_abort. rewrite Hs1, Hp1. reflexivity.
Qed.

Lemma f_pop_back_ok a v l m :
  frep m v (l ++ [a]) -> mem_ok m ->
  fok m v l (shrink (length l) (v_cap v)) (f_pop_back triv fail v m).
Proof.
  intros Hr Hok. apply frep_nonempty in Hr; [|destruct l; discriminate].
  unfold f_pop_back, shrink, fok.
  pose proof (vrep_size _ _ _ Hr) as Hs. rewrite app_length in Hs. simpl in Hs.
  destruct (Nat.ltb_spec 0 (v_size v)); [|lia]. cbn [dassert]. rewrite bind_ret.
  destruct (destroy_last_ok triv m v l a Hr Hok) as (m1 & Hd & Hpost).
  erewrite bind_ok by exact Hd. replace (v_size v - 1) with (length l) in * by lia.
  apply vpost_fpost in Hpost.
  destruct (Nat.ltb_spec (length l) (v_cap v / 3)) as [Hlt|Hge].
  - pose proof Hpost as (Hr1 & Hc1 & Hok1 & _).
    pose proof (f_resize_ok (v_cap v / 2) _ _ _ Hr1 Hok1) as H2.
    assert (v_cap v / 3 <= v_cap v / 2).
    { apply Nat.div_le_compat_l. lia. }
    rewrite take_ge in H2 by lia. destruct H2 as [H2|(v2 & m2 & Hrun & Hpost2)]; [auto|right].
    do 2 eexists. split; [exact Hrun|]. eapply fpost_trans; eassumption.
  - right. do 2 eexists. split; [reflexivity|]. exact Hpost.
Qed.

Lemma f_clear_ok v l m :
  frep m v l -> mem_ok m ->
  exists m', v_clear triv v m = Ok (v_empty, m') /\ fpost m v m' v_empty [] 0 /\ vrep m' v_empty [].
Proof.
  intros [Hr|(-> & Hs & Hp)] Hok.
  - destruct (v_clear_ok triv v l m Hr Hok) as (m' & Hrun & Hpost).
    exists m'. split; [exact Hrun|]. split; [eapply vpost_fpost, Hpost|apply vrep_empty].
  - exists m. unfold v_clear. rewrite Hp. split; [reflexivity|]. split; [|apply vrep_empty].
    unfold fpost. split_and!; auto; [left; apply vrep_empty|]. unfold rest. rewrite Hp. reflexivity.
Qed.

Lemma f_copy_assign_ok v u lv lu m :
  triv = true \/ lu = [] ->
  frep m v lv -> frep m u lu -> mem_ok m ->
  (forall b, v_ptr u = Some b -> v_ptr v <> Some b) ->
  fok m v lu (v_cap u) (f_copy_assign triv fail v u m).
Proof.
  intros Ht Hv Hu Hok Hsep. unfold f_copy_assign, fok.
  destruct (f_clear_ok v lv m Hv Hok) as (m1 & Hclr & Hpost1 & Hr1).
  erewrite bind_ok by exact Hclr.
  pose proof Hpost1 as (_ & Hc1 & Hok1 & Hrest1 & _).
  destruct (frep_frame _ _ _ _ _ _ Hrest1 Hu Hsep) as [Hu1 Hsep1].
  destruct (f_resize_vrep (v_cap u) _ _ _ Hr1 Hok1) as [H2|(v2 & m2 & Hrsz & Hpost2)].
  { left. apply bind_abort, H2. }
  rewrite take_nil in Hpost2.
  erewrite bind_ok by exact Hrsz.
  pose proof Hpost2 as (Hr2 & Hc2 & Hok2 & Hrest2 & _).
  destruct (frep_frame _ _ _ _ _ _ Hrest2 Hu1 Hsep1) as [Hu2 Hsep2].
  pose proof (fpost_trans _ _ _ _ _ _ _ _ _ _ Hpost1 Hpost2) as Hpost12.
  rewrite (frep_size _ _ _ Hu).
  destruct lu as [|a lu].
  { simpl. rewrite bind_ret. right. do 2 eexists. split; [reflexivity|].
    rewrite <- Hc2 in *. destruct v2 as [s2 c2 p2]. pose proof (frep_size _ _ _ Hr2) as Hs2. simpl in Hs2. subst s2.
    simpl. exact Hpost12. }
  destruct Ht as [Ht|Ht]; [|discriminate].
  apply frep_nonempty in Hu2; [|discriminate].
  destruct Hr2 as [Hr2|(_ & Hs2 & Hp2)].
  - right. destruct (copy_loop triv u (a :: lu) [] v2 m2 Ht Hr2 Hok2) as (m3 & Hrun & Hpost3).
    { rewrite Hc2. apply (vrep_cap _ _ _ Hu2). }
    all: eauto.
    simpl plus in Hrun, Hpost3. change (length [] + length (a :: lu)) with (length (a :: lu)) in Hpost3.
    erewrite bind_ok by exact Hrun. do 2 eexists. split; [reflexivity|].
    rewrite Hc2 in Hpost3 |- *. eapply fpost_trans; [exact Hpost12|]. eapply vpost_fpost, Hpost3.
  - left. apply bind_abort. simpl. apply bind_abort, bind_abort. rewrite Hp2. reflexivity.
Qed.

Lemma f_copy_assign_nontriv v u lv lu m :
  triv = false -> lu <> [] ->
  frep m v lv -> frep m u lu -> mem_ok m ->
  f_copy_assign triv fail v u m = UB \/ f_copy_assign triv fail v u m = Abort.
Proof.
  intros Ht Hne Hv Hu Hok. unfold f_copy_assign. apply frep_nonempty in Hu; [|assumption].
  destruct (f_clear_ok v lv m Hv Hok) as (m1 & Hclr & Hpost1 & Hr1).
  erewrite bind_ok by exact Hclr.
  pose proof Hpost1 as (_ & Hc1 & Hok1 & _).
  destruct (f_resize_vrep (v_cap u) _ _ _ Hr1 Hok1) as [H2|(v2 & m2 & Hrsz & Hpost2)].
  { right. apply bind_abort, H2. }
  rewrite take_nil in Hpost2.
  erewrite bind_ok by exact Hrsz.
  pose proof Hpost2 as (Hr2 & Hc2 & _).
  rewrite (vrep_size _ _ _ Hu). destruct lu as [|a lu]; [congruence|]. simpl.
  pose proof (vrep_cap _ _ _ Hu) as Hcap. simpl in Hcap.
  destruct Hr2 as [(Hs & Hc & Hp)|(_ & Hs2 & Hp2)].
  - left. apply bind_ub, bind_ub, bind_ub. simpl in Hs. unfold destroy. destruct (v_ptr v2) as [b|].
    + destruct Hp as [_ ->]. rewrite cells_lookup_raw by (simpl; lia). rewrite Ht. reflexivity.
    + exfalso. lia.
  - right. apply bind_abort, bind_abort, bind_abort. rewrite Hp2. reflexivity.
Qed.

Lemma frep_empty m : frep m v_empty [].
Proof. left. apply vrep_empty. Qed.

(** *** All vectors of a program: as [winv] of VectorWorld.v *)
Record finv (w : world) (s : sworld) : Prop := {
  fi_ok : mem_ok (w_mem w);
  fi_leak : m_leaked (w_mem w) = 0;
  fi_rep : forall id,
    match w_objs w !! id, s !! id with
    | Some v, Some l => frep (w_mem w) v (l_seq l) /\ v_cap v = l_cap l
    | None, None => True
    | _, _ => False
    end;
  fi_sep : forall i j vi vj b,
    w_objs w !! i = Some vi -> w_objs w !! j = Some vj ->
    v_ptr vi = Some b -> v_ptr vj = Some b -> i = j;
  fi_cover : forall b, is_Some (m_blocks (w_mem w) !! b) ->
    exists i v, w_objs w !! i = Some v /\ v_ptr v = Some b
}.

Lemma finv_init : finv world_init ∅.
Proof.
  constructor; simpl; auto.
  - intros b [x Hx]. simpl in Hx. rewrite lookup_empty in Hx. discriminate.
  - intros id. rewrite !lookup_empty. exact I.
  - intros i j vi vj b H. rewrite lookup_empty in H. discriminate.
  - intros b [x Hx]. rewrite lookup_empty in Hx. discriminate.
Qed.

Lemma finv_obj w s id l :
  finv w s -> s !! id = Some l -> exists v, w_objs w !! id = Some v /\ frep (w_mem w) v (l_seq l) /\ v_cap v = l_cap l.
Proof.
  intros H Hl. pose proof (fi_rep _ _ H id) as Hr. rewrite Hl in Hr.
  destruct (w_objs w !! id) as [v|]; [|contradiction]. eauto.
Qed.
Lemma finv_absent w s id : finv w s -> s !! id = None -> w_objs w !! id = None.
Proof.
  intros H Hl. pose proof (fi_rep _ _ H id) as Hr. rewrite Hl in Hr.
  destruct (w_objs w !! id) as [v|]; [contradiction|reflexivity].
Qed.

Lemma finv_new w s id :
  finv w s -> s !! id = None ->
  finv (World (w_mem w) (<[id := v_empty]> (w_objs w))) (<[id := LVec [] 0]> s).
Proof.
  intros H Hn. pose proof (finv_absent _ _ _ H Hn) as Ha. destruct H as [Hok Hlk Hrep Hsep Hcov].
  constructor; simpl; auto.
  - intros i. destruct (decide (id = i)) as [->|Hne].
    + rewrite !lookup_insert. split; [apply frep_empty|reflexivity].
    + rewrite !lookup_insert_ne by assumption. apply Hrep.
  - intros i j vi vj b Hi Hj Hpi Hpj.
    destruct (decide (id = i)) as [->|Hni]; [rewrite lookup_insert in Hi; injection Hi as <-; discriminate|].
    destruct (decide (id = j)) as [->|Hnj]; [rewrite lookup_insert in Hj; injection Hj as <-; discriminate|].
    rewrite lookup_insert_ne in Hi, Hj by assumption. eauto.
  - intros b Hb. destruct (Hcov b Hb) as (i & v & Hi & Hv). exists i, v.
    rewrite lookup_insert_ne by congruence. auto.
Qed.

Lemma finv_update w s id v m' v' l' c :
  finv w s -> w_objs w !! id = Some v -> fpost (w_mem w) v m' v' l' c ->
  finv (World m' (<[id := v']> (w_objs w))) (<[id := LVec l' c]> s).
Proof.
  intros [Hok Hlk Hrep Hsep Hcov] Hid (Hr & Hc & Hok' & Hrest & Hlk').
  assert (Hfr : forall i u l, id <> i -> w_objs w !! i = Some u -> frep (w_mem w) u l ->
    frep m' u l /\ (forall b, v_ptr u = Some b -> v_ptr v' <> Some b)).
  { intros i u l Hne Hu Hru. apply (frep_frame (w_mem w) v m' v' u l); auto.
    intros b Hb Hvb. apply Hne. eapply Hsep; eauto. }
  constructor; simpl; auto; [lia| | |].
  - intros i. destruct (decide (id = i)) as [->|Hne].
    + rewrite !lookup_insert. split; [exact Hr|exact Hc].
    + rewrite !lookup_insert_ne by assumption. specialize (Hrep i).
      destruct (w_objs w !! i) as [u|] eqn:Hu; destruct (s !! i) as [l|]; auto.
      destruct Hrep as [Hrep1 Hrep2]. split; [|exact Hrep2]. apply (Hfr i u _ Hne Hu Hrep1).
  - assert (Hx : forall i u b, id <> i -> w_objs w !! i = Some u -> v_ptr u = Some b -> v_ptr v' <> Some b).
    { intros i u b Hne Hu Hb. specialize (Hrep i). rewrite Hu in Hrep.
      destruct (s !! i) as [l|]; [|contradiction]. destruct Hrep as [Hrep1 _]. apply (Hfr i u _ Hne Hu Hrep1); assumption. }
    intros i j vi vj b Hi Hj Hpi Hpj.
    destruct (decide (id = i)) as [->|Hni]; destruct (decide (i = j)) as [->|Hij]; auto.
    + rewrite lookup_insert in Hi. injection Hi as <-. rewrite lookup_insert_ne in Hj by assumption.
      exfalso. eapply (Hx j); eauto.
    + destruct (decide (id = j)) as [->|Hnj].
      * rewrite lookup_insert in Hj. injection Hj as <-. rewrite lookup_insert_ne in Hi by congruence.
        exfalso. eapply (Hx i); eauto.
      * rewrite lookup_insert_ne in Hi, Hj by assumption. eauto.
  - intros b Hb. destruct (decide (v_ptr v' = Some b)) as [Hv|Hv].
    { exists id, v'. rewrite lookup_insert. auto. }
    assert (Hb2 : is_Some (rest m' v' !! b)).
    { unfold rest. destruct (v_ptr v') as [p|]; [|exact Hb]. rewrite lookup_delete_ne by congruence. exact Hb. }
    rewrite Hrest in Hb2. unfold rest in Hb2.
    assert (v_ptr v <> Some b).
    { intros Hp. rewrite Hp, lookup_delete in Hb2. destruct Hb2; discriminate. }
    destruct (Hcov b) as (i & u & Hu & Hp).
    { destruct (v_ptr v); [|exact Hb2]. rewrite lookup_delete_ne in Hb2 by congruence. exact Hb2. }
    exists i, u. rewrite lookup_insert_ne by congruence. auto.
Qed.

Lemma finv_delete w s id v m' c :
  finv w s -> w_objs w !! id = Some v -> fpost (w_mem w) v m' v_empty [] c ->
  finv (World m' (delete id (w_objs w))) (delete id s).
Proof.
  intros H Hid Hpost. destruct (finv_update _ _ _ _ _ _ _ _ H Hid Hpost) as [Hok Hlk Hrep Hsep Hcov].
  simpl in *. constructor; simpl; auto.
  - intros i. specialize (Hrep i). destruct (decide (id = i)) as [->|Hne].
    + rewrite !lookup_delete. exact I.
    + rewrite !lookup_insert_ne in Hrep by assumption. rewrite !lookup_delete_ne by assumption. exact Hrep.
  - intros i j vi vj b Hi Hj. apply lookup_delete_Some in Hi as [Hni Hi], Hj as [Hnj Hj].
    apply (Hsep i j); rewrite lookup_insert_ne; assumption.
  - intros b Hb. destruct (Hcov b Hb) as (i & u & Hu & Hp). exists i, u.
    destruct (decide (id = i)) as [->|Hne].
    + rewrite lookup_insert in Hu. injection Hu as <-. discriminate.
    + rewrite lookup_insert_ne in Hu by assumption. rewrite lookup_delete_ne by assumption. auto.
Qed.

Lemma finv_move w s id src u l m' c :
  finv w s -> id <> src -> (exists v, w_objs w !! id = Some v /\ fpost (w_mem w) v m' v_empty [] c) ->
  w_objs w !! src = Some u -> s !! src = Some l ->
  finv (World m' (<[src := v_empty]> (<[id := u]> (w_objs w)))) (<[src := LVec [] 0]> (<[id := l]> s)).
Proof.
  intros H Hne (v & Hid & Hpost) Hu Hl.
  destruct (finv_update _ _ _ _ _ _ _ _ H Hid Hpost) as [Hok Hlk Hrep Hsep Hcov]. simpl in *.
  constructor; simpl; auto.
  - intros i. destruct (decide (src = i)) as [->|Hns].
    { rewrite !lookup_insert. split; [apply frep_empty|reflexivity]. }
    rewrite !(lookup_insert_ne _ src) by assumption.
    destruct (decide (id = i)) as [->|Hni].
    { rewrite !lookup_insert. specialize (Hrep src).
      rewrite !lookup_insert_ne in Hrep by assumption. rewrite Hu, Hl in Hrep. exact Hrep. }
    specialize (Hrep i). rewrite !lookup_insert_ne in Hrep by assumption.
    rewrite !lookup_insert_ne by assumption. exact Hrep.
  - assert (Hmap : forall i vi b, <[src := v_empty]> (<[id := u]> (w_objs w)) !! i = Some vi -> v_ptr vi = Some b ->
      exists i', <[id := v_empty]> (w_objs w) !! i' = Some vi /\ (i = id /\ i' = src \/ i <> id /\ i' = i /\ i <> src)).
    { intros i vi b Hi Hp. destruct (decide (src = i)) as [->|Hns].
      { rewrite lookup_insert in Hi. injection Hi as <-. discriminate. }
      rewrite lookup_insert_ne in Hi by assumption.
      destruct (decide (id = i)) as [->|Hni].
      - rewrite lookup_insert in Hi. injection Hi as <-. exists src.
        rewrite lookup_insert_ne by assumption. auto.
      - rewrite lookup_insert_ne in Hi by assumption. exists i. rewrite lookup_insert_ne by assumption. auto. }
    intros i j vi vj b Hi Hj Hpi Hpj.
    destruct (Hmap _ _ _ Hi Hpi) as (i' & Hi' & Hci). destruct (Hmap _ _ _ Hj Hpj) as (j' & Hj' & Hcj).
    assert (i' = j') by eauto. subst j'. naive_solver.
  - intros b Hb. destruct (Hcov b Hb) as (i & x & Hx & Hp).
    destruct (decide (id = i)) as [->|Hni].
    { rewrite lookup_insert in Hx. injection Hx as <-. discriminate. }
    rewrite lookup_insert_ne in Hx by assumption.
    destruct (decide (src = i)) as [->|Hns].
    + exists id, u. rewrite lookup_insert_ne, lookup_insert by congruence. split; congruence.
    + exists i, x. rewrite !lookup_insert_ne by assumption. auto.
Qed.

Lemma fsep_of w s id src v u :
  finv w s -> w_objs w !! id = Some v -> w_objs w !! src = Some u -> id <> src ->
  forall b, v_ptr u = Some b -> v_ptr v <> Some b.
Proof. intros H Hv Hu Hne b Hub Hvb. apply Hne. eapply (fi_sep _ _ H); eauto. Qed.



Definition fsim {X} (r : res (X * sworld)) (c : res (X * world)) : Prop :=
  c = Abort \/
  match r with
  | Ok (x, s') => exists w', c = Ok (x, w') /\ finv w' s'
  | Abort => c = Abort
  | UB => c = UB
  | Diverge => c = Diverge
  end.

(** Reading calls only look at the size and the pointer. *)
Lemma frep_flat m v l :
  frep m v l -> exists v0, vrep m v0 l /\ v_size v0 = v_size v /\ v_ptr v0 = v_ptr v.
Proof.
  intros [H|(-> & Hs & Hp)]; [eauto|]. exists v_empty. rewrite Hs, Hp. split; [apply vrep_empty|auto].
Qed.
Lemma f_move_assign_ok v u lv m :
  frep m v lv -> mem_ok m ->
  exists m', v_move_assign triv v u m = Ok ((u, v_empty), m') /\ fpost m v m' v_empty [] 0.
Proof.
  intros Hv Hok. unfold v_move_assign.
  destruct (f_clear_ok v lv m Hv Hok) as (m1 & Hclr & Hpost1 & _).
  erewrite bind_ok by exact Hclr. exists m1. destruct u. auto.
Qed.
Lemma fobj_ub (w : world) s id : finv w s -> s !! id = None -> obj id w = UB.
Proof. intros H Hn. unfold obj. rewrite (finv_absent _ _ _ H Hn). reflexivity. Qed.
Lemma fabsent_ub (w : world) s id l : finv w s -> s !! id = Some l -> absent id w = UB.
Proof. intros H Hn. unfold absent. destruct (finv_obj _ _ _ _ H Hn) as (v & -> & _). reflexivity. Qed.

Lemma fok_step m v l c r (w : world) s id lv :
  finv w s -> w_objs w !! id = Some v -> s !! id = Some lv -> m = w_mem w -> fok m v l c (r m) ->
  fsim (Ok (RUnit (A := A), <[id := LVec l c]> s)) ((v' <- lift r ;; set_obj id v' ;;; ret RUnit) w).
Proof.
  intros H Hv Hl -> [Hr|(v' & m' & Hr & Hpost)].
  - left. apply bind_abort, lift_abort, Hr.
  - right. erewrite bind_ok by (apply lift_ok; exact Hr). eexists. split; [reflexivity|]. simpl.
    exact (finv_update _ _ _ _ _ _ _ _ H Hv Hpost).
Qed.
Lemma fok_new m l c r (w : world) s id :
  finv w s -> s !! id = None -> m = w_mem w -> fok m v_empty l c (r m) ->
  fsim (Ok (RUnit (A := A), <[id := LVec l c]> s)) ((v' <- lift r ;; set_obj id v' ;;; ret RUnit) w).
Proof.
  intros H Hl -> [Hr|(v' & m' & Hr & Hpost)].
  - left. apply bind_abort, lift_abort, Hr.
  - right. erewrite bind_ok by (apply lift_ok; exact Hr). eexists. split; [reflexivity|]. simpl.
    pose proof (finv_update _ _ id _ _ _ _ _ (finv_new _ _ _ H Hl) (lookup_insert _ _ _) Hpost) as Hw.
    simpl in Hw. rewrite !insert_insert in Hw. exact Hw.
Qed.
Lemma f_grow m v l : frep m v l -> grow (length l) (v_cap v) = cap_push (length l) (v_cap v).
Proof.
  intros H. symmetry. apply cap_push_grow. destruct H as [H|(-> & _)]; [apply (vrep_cap _ _ _ H)|simpl; lia].
Qed.

Lemma f_step_sim o w s : finv w s -> fsim (lv_step triv o s) (f_step triv fail o w).
Proof.
  intros H. pose proof (fi_ok _ _ H) as Hok.
  destruct o as [id|id n a|id src|id src|id src|id src|id a|id|id i a|id n|id n a|id|id|id i|id|id|id|id|id];
    cbn [lv_step f_step v_step]; unfold lnew, lwith;
    destruct (s !! id) as [lv|] eqn:Hl;
    try (right; apply bind_ub; eapply fabsent_ub; eassumption);
    try (right; apply bind_ub; eapply fobj_ub; eassumption);
    try (destruct (finv_obj _ _ _ _ H Hl) as (v & Hv & Hr & Hcv); pose proof (frep_size _ _ _ Hr) as Hsz;
         rewrite (bind_ok _ _ _ _ _ (obj_ok _ _ _ Hv)); destruct lv as [l c]; cbn [l_seq l_cap] in *);
    try (pose proof (finv_absent _ _ _ H Hl) as Ha; rewrite (bind_ok _ _ _ _ _ (absent_ok _ _ Ha))).
  - (* ONew *) right. eexists. split; [reflexivity|]. apply finv_new; assumption.
  - (* OFill *) destruct (Nat.eqb_spec n 0) as [->|Hn].
    + left. reflexivity.
    + rewrite repeat_replicate. eapply fok_new; eauto. apply f_fill_ok; assumption.
  - (* OCopyNew *) destruct (s !! src) as [[lu cu]|] eqn:Hlu; [|right; apply bind_ub; eapply fobj_ub; eassumption].
    destruct (finv_obj _ _ _ _ H Hlu) as (u & Hu & Hru & Hcu). cbn [l_seq l_cap] in *.
    erewrite bind_ok by (apply obj_ok; exact Hu).
    destruct (copyable triv lu) eqn:Hcp.
    2:{ destruct (f_copy_assign_nontriv v_empty u [] lu (w_mem w)) as [E|E]; auto.
        - unfold copyable in Hcp. destruct triv; [discriminate|reflexivity].
        - intros ->. unfold copyable in Hcp. destruct triv; discriminate.
        - apply frep_empty.
        - right. apply bind_ub, lift_ub, E.
        - left. apply bind_abort, lift_abort, E. }
    eapply fok_new; eauto. rewrite <- Hcu. eapply f_copy_assign_ok; eauto.
    { unfold copyable in Hcp. destruct triv; [auto|]. right. destruct lu; [reflexivity|discriminate]. }
    apply frep_empty.
  - (* OMoveNew *) right. destruct (s !! src) as [lu|] eqn:Hlu; [|apply bind_ub; eapply fobj_ub; eassumption].
    destruct (finv_obj _ _ _ _ H Hlu) as (u & Hu & Hru & Hcu).
    erewrite bind_ok by (apply obj_ok; exact Hu).
    destruct (f_move_assign_ok v_empty u [] (w_mem w)) as (m' & Hrun & Hpost); eauto.
    { apply frep_empty. }
    erewrite bind_ok by (apply lift_ok; exact Hrun). eexists. split; [reflexivity|]. simpl.
    assert (Hne : id <> src) by congruence.
    pose proof (finv_move _ _ id src u lu m' 0 (finv_new _ _ _ H Hl) Hne) as Hw. simpl in Hw.
    rewrite !insert_insert in Hw. apply Hw.
    + exists v_empty. rewrite lookup_insert. auto.
    + rewrite lookup_insert_ne by assumption. exact Hu.
    + rewrite lookup_insert_ne by assumption. exact Hlu.
  - (* OAssign *) destruct (s !! src) as [[lu cu]|] eqn:Hlu; [|right; apply bind_ub; eapply fobj_ub; eassumption].
    destruct (finv_obj _ _ _ _ H Hlu) as (u & Hu & Hru & Hcu). cbn [l_seq l_cap] in *.
    erewrite bind_ok by (apply obj_ok; exact Hu).
    destruct (Nat.eqb_spec id src) as [->|Hne].
    { right. eexists. split; [reflexivity|]. exact H. }
    destruct (copyable triv lu) eqn:Hcp.
    2:{ destruct (f_copy_assign_nontriv v u l lu (w_mem w)) as [E|E]; auto.
        - unfold copyable in Hcp. destruct triv; [discriminate|reflexivity].
        - intros ->. unfold copyable in Hcp. destruct triv; discriminate.
        - right. apply bind_ub, lift_ub, E.
        - left. apply bind_abort, lift_abort, E. }
    eapply fok_step; eauto. rewrite <- Hcu. eapply f_copy_assign_ok; eauto.
    { unfold copyable in Hcp. destruct triv; [auto|]. right. destruct lu; [reflexivity|discriminate]. }
    eapply fsep_of; eauto.
  - (* OMoveAssign *) right. destruct (s !! src) as [lu|] eqn:Hlu; [|apply bind_ub; eapply fobj_ub; eassumption].
    destruct (finv_obj _ _ _ _ H Hlu) as (u & Hu & Hru & Hcu).
    erewrite bind_ok by (apply obj_ok; exact Hu).
    destruct (Nat.eqb_spec id src) as [->|Hne].
    { eexists. split; [reflexivity|]. exact H. }
    destruct (f_move_assign_ok v u l (w_mem w)) as (m' & Hrun & Hpost); eauto.
    erewrite bind_ok by (apply lift_ok; exact Hrun). eexists. split; [reflexivity|]. simpl.
    eapply finv_move; eauto.
  - (* OPush *) eapply fok_step; eauto. rewrite <- Hcv, <- (f_grow _ _ _ Hr).
    apply f_push_back_gen; auto.
  - (* OPop *)
    destruct (list_snoc_cases l) as [->|(l0 & a & ->)].
    + right. apply bind_abort, lift_abort. unfold f_pop_back. rewrite Hsz. reflexivity.
    + destruct (l0 ++ [a]) eqn:E; [destruct l0; discriminate|]. rewrite <- E in *.
      rewrite removelast_last, app_length. simpl. rewrite Nat.add_sub.
      eapply fok_step; eauto. rewrite <- Hcv. apply (f_pop_back_ok a); assumption.
  - (* OSet *) right. unfold at_index. destruct (frep_flat _ _ _ Hr) as (v0 & Hr0 & Hs0 & Hp0).
    assert (E : v_set v i a (w_mem w) = v_set v0 i a (w_mem w)).
    { unfold v_set, v_index. rewrite Hs0, Hp0. reflexivity. }
    destruct (py_index (length l) i) as [k|] eqn:Hk.
    + assert (Hne : l <> []).
      { intros ->. destruct (v_index_ok _ _ _ _ _ Hr0 Hk) as [_ Hlt]. simpl in Hlt. lia. }
      pose proof (frep_nonempty _ _ _ Hr Hne) as Hr1.
      destruct (v_set_ok v l _ i k a Hr1 Hok Hk) as (m' & Hrun & Hpost).
      erewrite bind_ok by (apply lift_ok; exact Hrun). eexists. split; [reflexivity|]. simpl.
      pose proof (finv_update _ _ _ _ _ _ _ _ H Hv (vpost_fpost _ _ _ _ _ _ _ Hpost)) as Hw.
      rewrite (insert_same _ _ _ Hv), Hcv in Hw. exact Hw.
    + destruct (Z.leb_spec (Z.of_nat (length l)) i).
      2:{ apply bind_ub, lift_ub. rewrite E. apply (v_set_neg _ _ _ _ _ Hr0). apply py_index_none; [assumption|lia]. }
      apply bind_abort, lift_abort. rewrite E. unfold v_set. apply bind_abort.
      apply (v_index_abort _ _ _ _ Hr0). lia.
  - (* OResize *) eapply fok_step; eauto. apply f_resize_ok; assumption.
  - (* OResizeFill *) rewrite repeat_replicate. eapply fok_step; eauto. apply f_resize_fill_ok; assumption.
  - (* OClear *) right.
    destruct (f_clear_ok v l _ Hr Hok) as (m' & Hrun & Hpost & _).
    erewrite bind_ok by (apply lift_ok; exact Hrun). eexists. split; [reflexivity|].
    simpl. eapply finv_update; eauto.
  - (* ODestroy *) right.
    destruct (f_clear_ok v l _ Hr Hok) as (m' & Hrun & Hpost & _).
    erewrite bind_ok by (apply lift_ok; exact Hrun). eexists. split; [reflexivity|].
    simpl. eapply finv_delete; eauto.
  - (* OGet *) right. unfold at_index. destruct (frep_flat _ _ _ Hr) as (v0 & Hr0 & Hs0 & Hp0).
    assert (E : v_get v i (w_mem w) = v_get v0 i (w_mem w)).
    { unfold v_get, v_index. rewrite Hs0, Hp0. reflexivity. }
    destruct (py_index (length l) i) as [k|] eqn:Hk.
    + destruct (nth_error l k) as [a|] eqn:Ha.
      2:{ exfalso. destruct (v_index_ok _ _ _ _ _ Hr0 Hk) as [_ Hlt].
          apply nth_error_None in Ha. lia. }
      erewrite bind_ok; cycle 1.
      { apply lift_ok. rewrite E. apply (v_get_ok _ _ _ _ _ a Hr0 Hk). rewrite <- nth_error_lookup. exact Ha. }
      rewrite world_same. eexists. split; [reflexivity|]. exact H.
    + destruct (Z.leb_spec (Z.of_nat (length l)) i).
      2:{ apply bind_ub, lift_ub. rewrite E. apply (v_get_neg _ _ _ _ Hr0). apply py_index_none; [assumption|lia]. }
      apply bind_abort, lift_abort. rewrite E. unfold v_get. apply bind_abort.
      apply (v_index_abort _ _ _ _ Hr0). lia.
  - (* OBack *) right. destruct (frep_flat _ _ _ Hr) as (v0 & Hr0 & Hs0 & Hp0).
    assert (E : v_back v (w_mem w) = v_back v0 (w_mem w)).
    { unfold v_back. rewrite Hs0, Hp0. reflexivity. }
    destruct (list_snoc_cases l) as [->|(l0 & a & ->)].
    + simpl. apply bind_abort, lift_abort. rewrite E. apply v_back_abort. exact Hr0.
    + rewrite app_length. simpl. replace (length l0 + 1 - 1) with (length l0) by lia.
      rewrite nth_error_app2, Nat.sub_diag by lia. simpl.
      erewrite bind_ok by (apply lift_ok; rewrite E; apply (v_back_ok _ _ _ _ Hr0)).
      rewrite world_same. eexists. split; [reflexivity|]. exact H.
  - (* OFront *) right. destruct (frep_flat _ _ _ Hr) as (v0 & Hr0 & Hs0 & Hp0).
    assert (E : v_front v (w_mem w) = v_front v0 (w_mem w)).
    { unfold v_front. rewrite Hp0. reflexivity. }
    destruct l as [|a l]; [apply bind_ub, lift_ub; rewrite E; apply (load_ub _ _ _ _ Hr0); reflexivity|].
    erewrite bind_ok by (apply lift_ok; rewrite E; apply (v_front_ok _ _ _ _ Hr0)).
    rewrite world_same. eexists. split; [reflexivity|]. exact H.
  - (* OSize *) right. rewrite Hsz. eexists. split; [reflexivity|]. exact H.
  - (* OEmpty *) right. rewrite Hsz. destruct l; (eexists; split; [reflexivity|]; exact H).
  - (* OIter *) right. destruct (frep_flat _ _ _ Hr) as (v0 & Hr0 & Hs0 & Hp0).
    assert (E : v_iter v (w_mem w) = v_iter v0 (w_mem w)).
    { unfold v_iter. rewrite Hs0, Hp0. reflexivity. }
    erewrite bind_ok by (apply lift_ok; rewrite E; apply (v_iter_ok _ _ _ Hr0)).
    rewrite world_same. eexists. split; [reflexivity|]. exact H.
Qed.

(** Pushing an own element of a full vector: the reference dangles, or the
    request was refused first. *)
Lemma f_push_own_full v (l : list A) m k a :
  vrep m v l -> mem_ok m -> l !! k = Some a -> v_cap v = length l ->
  f_push_back triv fail (ARef (v_ptr v) k) v m = UB \/ f_push_back triv fail (ARef (v_ptr v) k) v m = Abort.
Proof.
  intros Hr Hok Ha Hc. destruct (fail (m_next m)) eqn:Hf.
  - right. unfold f_push_back. rewrite (vrep_size _ _ _ Hr).
    destruct (Nat.ltb_spec (v_cap v) (length l + 1)); [|lia].
    destruct l as [|x l]; [discriminate|]. simpl negb. cbn iota.
    apply bind_abort. set (n := 2 * length (x :: l)).
    destruct (f_resize_vrep n v _ m Hr Hok) as [E|(v' & m' & Hrun & Hpost)]; [exact E|exfalso].
    revert Hrun. unfold f_resize. assert (Hn : n <> 0) by (unfold n; simpl; lia).
    destruct (Nat.eqb_spec n 0); [lia|].
    set (m1 := Mem (m_blocks m) (S (m_next m)) (m_leaked m) (m_ctor m)).
    assert (Hal : f_alloc fail n m = Ok (None, m1)).
    { unfold f_alloc. rewrite Hf. reflexivity. }
    erewrite bind_ok by exact Hal.
    destruct (vrep_ptr _ _ _ Hr) as (b & Hb & Hcs); [discriminate|]. rewrite Hb.
    rewrite (vrep_size _ _ _ Hr).
    destruct (Nat.eqb_spec (v_cap v) 0); [simpl in *; lia|]. cbn [negb dassert].
    intros Hrun. apply bind_inv in Hrun as ([] & m2 & Hrun & _).
    rewrite bind_ret in Hrun. apply bind_inv in Hrun as ([] & m3 & Hrun & _).
    change (length (x :: l)) with (S (length l)) in Hrun. cbn [for_range] in Hrun.
    apply bind_inv in Hrun as ([] & m4 & Hrun & _).
    destruct n as [|n]; [lia|]. simpl in Hrun.
    apply bind_inv in Hrun as ([] & m5 & Hrun & _).
    apply bind_inv in Hrun as (y & m6 & Hrun & Hx). discriminate.
  - left. rewrite <- (v_push_own_full triv v l m k a Hr Hok Ha) by congruence.
    unfold f_push_back, v_push_back. apply bind_ext1.
    destruct (v_cap v <? v_size v + 1); [|reflexivity].
    destruct (negb (v_size v =? 0)); apply f_resize_eq; auto.
Qed.

Lemma fw_step_sim o w s : finv w s -> fsim (lw_step triv o s) (fw_step triv fail o w).
Proof.
  intros H. destruct o as [o|id|id src i]; [apply f_step_sim, H| |]; cbn [lw_step fw_step w_step]; unfold lwith.
  - right. destruct (s !! id) as [lv|] eqn:Hl; [|apply bind_ub; eapply fobj_ub; eassumption].
    destruct (finv_obj _ _ _ _ H Hl) as (v & Hv & Hr & Hcv).
    rewrite (bind_ok _ _ _ _ _ (obj_ok _ _ _ Hv)), Hcv. eexists. split; [reflexivity|]. exact H.
  - destruct (s !! id) as [lv|] eqn:Hl; [|right; apply bind_ub; eapply fobj_ub; eassumption].
    destruct (finv_obj _ _ _ _ H Hl) as (v & Hv & Hr & Hcv).
    rewrite (bind_ok _ _ _ _ _ (obj_ok _ _ _ Hv)).
    destruct (s !! src) as [lu|] eqn:Hlu; [|right; apply bind_ub; eapply fobj_ub; eassumption].
    destruct (finv_obj _ _ _ _ H Hlu) as (u & Hu & Hru & Hcu).
    rewrite (bind_ok _ _ _ _ _ (obj_ok _ _ _ Hu)).
    pose proof (fi_ok _ _ H) as Hok. unfold at_index.
    destruct (frep_flat _ _ _ Hru) as (u0 & Hru0 & Hs0 & Hp0).
    assert (E : v_index (A := A) u i = v_index u0 i) by (unfold v_index; rewrite Hs0; reflexivity).
    destruct (py_index (length (l_seq lu)) i) as [k|] eqn:Hk.
    + destruct (v_index_ok _ _ _ _ _ Hru0 Hk) as [Hi Hlt].
      rewrite E. erewrite bind_ok by (apply lift_ok; exact Hi). rewrite world_same.
      destruct (Z.ltb_spec (Z.of_nat k) 0); [lia|]. rewrite Nat2Z.id.
      destruct (lookup_lt_is_Some_2 _ _ Hlt) as [a Ha]. rewrite nth_error_lookup, Ha.
      assert (Hru1 : vrep (w_mem w) u (l_seq lu)).
      { apply (frep_nonempty _ _ _ Hru). intros E0. rewrite E0 in Hlt. simpl in Hlt. lia. }
      destruct (Nat.eqb_spec id src) as [->|Hne]; cbn [andb].
      * rewrite Hl in Hlu. injection Hlu as <-. rewrite Hv in Hu. injection Hu as <-.
        destruct (Nat.eqb_spec (length (l_seq lv)) (l_cap lv)) as [Hf|Hf].
        -- destruct (f_push_own_full v (l_seq lv) _ k a Hru1 Hok Ha) as [E1|E1]; [congruence| |].
           ++ right. apply bind_ub, lift_ub, E1.
           ++ left. apply bind_abort, lift_abort, E1.
        -- pose proof (vrep_cap _ _ _ Hru1) as Hcap. rewrite Hcv in Hcap.
           eapply fok_step; eauto. rewrite <- Hcv, <- (f_grow _ _ _ Hr).
           destruct (v_push_own_room triv v (l_seq lv) _ k a Hru1 Hok Ha ltac:(lia)) as (v' & m' & Hrun & Hpost).
           right. exists v', m'. split.
           ++ rewrite <- Hrun. unfold f_push_back, v_push_back. apply bind_ext1.
              rewrite (vrep_size _ _ _ Hru1). destruct (Nat.ltb_spec (v_cap v) (length (l_seq lv) + 1)); [lia|reflexivity].
           ++ apply vpost_fpost in Hpost. unfold grow.
              destruct (Nat.ltb_spec (v_cap v) (length (l_seq lv) + 1)); [lia|]. exact Hpost.
      * eapply fok_step; eauto. rewrite <- Hcv, <- (f_grow _ _ _ Hr).
        apply f_push_back_gen; auto.
        intros m1 v1 c1 (_ & _ & _ & Hrest & _). cbn [read_arg].
        destruct (vrep_frame _ _ _ _ _ _ Hrest Hru1) as [Hru2 _].
        { eapply fsep_of; eauto. }
        eapply load_ok; eassumption.
    + rewrite E. right. destruct (Z.leb_spec (Z.of_nat (length (l_seq lu))) i).
      * apply bind_abort, lift_abort, (v_index_abort _ _ _ _ Hru0). lia.
      * destruct (v_index_neg _ _ _ i Hru0) as [Hix Hneg]; [apply py_index_none; [assumption|lia]|].
        erewrite bind_ok by (apply lift_ok; exact Hix).
        destruct (Z.ltb_spec (Z.of_nat (length (l_seq lu)) + i) 0); [reflexivity|lia].
Qed.

Lemma fwrun_sim {X} (p : wprog A X) : forall w s, finv w s -> fsim (lrun triv p s) (fwrun triv fail p w).
Proof.
  induction p as [x| | | |o k IH]; intros w s H; simpl; try (right; reflexivity).
  - right. exists w. auto.
  - destruct (fw_step_sim o w s H) as [Hs|Hs]; [left; apply bind_abort, Hs|].
    destruct (lw_step triv o s) as [[r s1]| | |].
    + destruct Hs as (w1 & Hstep & H1). unfold fsim. erewrite bind_ok by exact Hstep. apply IH, H1.
    + right. apply bind_abort, Hs.
    + right. apply bind_ub, Hs.
    + right. apply bind_diverge, Hs.
Qed.

Lemma finv_storage (w : world) s : finv w s -> storage_ok w.
Proof.
  intros H. destruct H as [Hok Hlk Hrep Hsep Hcov].
  split; [|split; [|split; [|split]]]; auto.
  - intros id v b Hv Hb. specialize (Hrep id). rewrite Hv in Hrep.
    destruct (s !! id) as [l|]; [|contradiction].
    destruct Hrep as ([(Hs & Hc & Hp)|(_ & _ & Hp)] & _); [|congruence]. rewrite Hb in Hp.
    exists (cells (l_seq l) (v_cap v)). split_and!; [tauto|rewrite cells_length; lia|].
    rewrite live_count_cells. exact Hs.
  - intros He. apply map_eq. intros b. rewrite lookup_empty.
    destruct (m_blocks (w_mem w) !! b) eqn:E; [|reflexivity].
    destruct (Hcov b ltac:(eauto)) as (i & v & Hi & _). rewrite He, lookup_empty in Hi. discriminate.
Qed.

Lemma finv_view (w : world) s : finv w s -> view w = s.
Proof.
  intros H. apply map_eq. intros id. unfold view. rewrite map_lookup_imap.
  pose proof (fi_rep _ _ H id) as Hr. unfold contents.
  destruct (w_objs w !! id) as [v|]; destruct (s !! id) as [[l c]|]; try contradiction; auto.
  destruct Hr as [Hr Hc]. simpl in *. subst c. destruct (frep_flat _ _ _ Hr) as (v0 & Hr0 & Hs0 & Hp0).
  assert (E : v_iter v (w_mem w) = v_iter v0 (w_mem w)).
  { unfold v_iter. rewrite Hs0, Hp0. reflexivity. }
  rewrite E, (v_iter_ok _ _ _ Hr0). reflexivity.
Qed.

Lemma out_of_memory {X} (p : wprog A X) :
  fwrun triv fail p world_init = Abort \/
  match lrun triv p ∅ with
  | Ok (x, s') => exists w', fwrun triv fail p world_init = Ok (x, w') /\ view w' = s' /\ storage_ok w'
  | Abort => fwrun triv fail p world_init = Abort
  | UB => fwrun triv fail p world_init = UB
  | Diverge => fwrun triv fail p world_init = Diverge
  end.
Proof.
  destruct (fwrun_sim p world_init ∅ finv_init) as [H|H]; [auto|right].
  destruct (lrun triv p ∅) as [[x s']| | |]; auto.
  destruct H as (w' & Hrun & Hw). exists w'. split_and!; auto.
  - apply finv_view, Hw.
  - eapply finv_storage, Hw.
Qed.


(** *** Only refusals of requests that are made matter *)
Section Served.
Context {S : Type} (nx : S -> nat).
Definition mono {X} (f : M S X) : Prop := forall s x s', f s = Ok (x, s') -> nx s <= nx s'.
Definition agr {X} (f g : M S X) : Prop := forall s x s',
  g s = Ok (x, s') -> (forall n, n < nx s' -> fail n = false) -> f s = Ok (x, s').
Lemma mono_ret {X} (x : X) : mono (ret x).
Proof. intros s y s' [= <- <-]. lia. Qed.
Lemma mono_abort {X} : mono (@abort S X).
Proof. intros s y s' [=]. Qed.
Lemma mono_ub {X} : mono (@ub S X).
Proof. intros s y s' [=]. Qed.
Lemma mono_bind {X Y} (f : M S X) (k : X -> M S Y) : mono f -> (forall x, mono (k x)) -> mono (bind f k).
Proof. intros Hf Hk s x s' H. apply bind_inv in H as (y & s1 & H1 & H2). apply Hf in H1. apply Hk in H2. lia. Qed.
Lemma mono_dassert b : mono (@dassert S b).
Proof. destruct b; [apply mono_ret|apply mono_abort]. Qed.
Lemma mono_range k : forall i (f : nat -> M S unit), (forall i, mono (f i)) -> mono (for_range i k f).
Proof.
  induction k as [|k IH]; intros i f Hf; simpl; [apply mono_ret|].
  apply mono_bind; [apply Hf|intros _; apply IH, Hf].
Qed.
Lemma agr_refl {X} (f : M S X) : agr f f.
Proof. intros s x s' H _. exact H. Qed.
Lemma agr_bind {X Y} (f g : M S X) (k k' : X -> M S Y) :
  agr f g -> (forall x, agr (k x) (k' x)) -> (forall x, mono (k' x)) -> agr (bind f k) (bind g k').
Proof.
  intros Hf Hk Hm s x s' H Hn. apply bind_inv in H as (y & s1 & H1 & H2).
  erewrite bind_ok; [apply Hk; [exact H2|exact Hn]|].
  apply Hf; [exact H1|]. intros n Hlt. apply Hn. apply Hm in H2. lia.
Qed.
End Served.

Notation mmono := (mono (@m_next A)).
Notation magr := (agr (@m_next A)).
Notation wmono := (mono (fun w : world => m_next (w_mem w))).
Notation wagr := (agr (fun w : world => m_next (w_mem w))).

Lemma mono_load b i : mmono (load b i).
Proof.
  intros m a m'. unfold load. destruct b as [b|]; [|discriminate].
  destruct (m_blocks m !! b) as [cs|]; [|discriminate]. destruct (cs !! i) as [[x|]|]; try discriminate.
  intros [= _ <-]. lia.
Qed.
Lemma mono_store b i a : mmono (store b i a).
Proof.
  intros m x m'. unfold store. destruct b as [b|]; [|discriminate].
  destruct (m_blocks m !! b) as [cs|]; [|discriminate]. destruct (cs !! i) as [[y|]|]; try discriminate.
  intros [= _ <-]. simpl. lia.
Qed.
Lemma mono_construct b i a : mmono (construct b i a).
Proof.
  intros m x m'. unfold construct. destruct b as [b|]; [|destruct (i =? 0); discriminate].
  destruct (m_blocks m !! b) as [cs|]; [|discriminate]. destruct (cs !! i) as [y|]; try discriminate.
  intros [= _ <-]. simpl. lia.
Qed.
Lemma mono_destroy b i : mmono (destroy triv b i).
Proof.
  intros m x m'. unfold destroy. destruct b as [b|]; [|destruct (i =? 0); discriminate].
  destruct (m_blocks m !! b) as [cs|]; [|discriminate]. destruct (cs !! i) as [[y|]|]; try discriminate.
  - intros [= _ <-]. simpl. lia.
  - destruct triv; [|discriminate]. intros [= _ <-]. lia.
Qed.
Lemma mono_dealloc b n : mmono (dealloc b n).
Proof.
  intros m x m'. unfold dealloc. destruct (m_blocks m !! b) as [cs|]; [|discriminate].
  destruct (_ =? n); [|discriminate]. intros [= _ <-]. simpl. lia.
Qed.
Lemma mono_alloc n : mmono (alloc n).
Proof. intros m x m' [= _ <-]. simpl. lia. Qed.
Lemma mono_arg x : mmono (read_arg x).
Proof. destruct x; [apply mono_ret|apply mono_load]. Qed.

Ltac mono := repeat first
  [ apply mono_ret | apply mono_load | apply mono_store | apply mono_construct | apply mono_destroy
  | apply mono_dealloc | apply mono_alloc | apply mono_arg | apply mono_dassert | apply mono_ub
  | match goal with |- mono _ (bind _ _) => apply mono_bind; [|intros ?] end
  | match goal with |- mono _ (for_range _ _ _) => apply mono_range; intros ? end ].

Lemma mono_move oldp newp c n k :
  mmono ((for_range 0 k (fun i =>
         (if Nat.ltb i n then (a <- load (Some oldp) i ;; construct newp i a) else ret tt) ;;;
         destroy triv (Some oldp) i)) ;;; dealloc oldp c).
Proof. mono. destruct (_ <? n); mono. Qed.
Lemma mono_resize n v : mmono (v_resize triv n v).
Proof.
  unfold v_resize. mono; [destruct (n =? 0); mono|].
  destruct (v_ptr v); [|apply mono_ret]. apply mono_bind; [mono|]. intros _. apply mono_move.
Qed.
Lemma mono_resize_fill n x v : mmono (v_resize_fill triv n x v).
Proof.
  unfold v_resize_fill. destruct (n =? 0); [apply mono_resize|]. mono.
  destruct (v_ptr v); [|apply mono_ret]. apply mono_move.
Qed.
Lemma mono_clear v : mmono (v_clear triv v).
Proof. unfold v_clear. mono. destruct (v_ptr v); mono. Qed.
Lemma mono_push x v : mmono (v_push_back triv x v).
Proof.
  unfold v_push_back. mono. destruct (_ <? _); [|apply mono_ret]. destruct (negb _); apply mono_resize.
Qed.
Lemma mono_pop v : mmono (v_pop_back triv v).
Proof. unfold v_pop_back. mono. destruct (_ <? _); [apply mono_resize|apply mono_ret]. Qed.
Lemma mono_fill n x : mmono (v_fill triv n x).
Proof. unfold v_fill. mono. apply mono_resize. Qed.
Lemma mono_copy v u : mmono (v_copy_assign triv v u).
Proof. unfold v_copy_assign. mono; [apply mono_clear|apply mono_resize]. Qed.
Lemma mono_move_assign v u : mmono (v_move_assign triv v u).
Proof. unfold v_move_assign. mono. apply mono_clear. Qed.
Lemma mono_index v i : mmono (v_index v i).
Proof. unfold v_index. mono. Qed.
Lemma mono_iter v : mmono (v_iter v).
Proof.
  unfold v_iter. generalize (S (v_size v)). intros n. generalize 0.
  induction n as [|n IH]; intros k; simpl; [intros s x s' [=]|].
  destruct (k =? v_size v); mono. apply IH.
Qed.

Lemma agr_resize n v : magr (f_resize triv fail n v) (v_resize triv n v).
Proof.
  intros m v' m' H Hn. rewrite <- H. apply f_resize_eq.
  destruct (Nat.eqb_spec n 0) as [->|Hn0]; [auto|right]. apply Hn.
  unfold v_resize in H. destruct (Nat.eqb_spec n 0); [lia|].
  erewrite bind_ok in H by reflexivity.
  match type of H with ?k ?m1 = _ => assert (Hm : mmono k); [|apply Hm in H; simpl in H; lia] end.
  mono. destruct (v_ptr v); [|apply mono_ret]. apply mono_bind; [mono|]. intros _. apply mono_move.
Qed.
Lemma agr_resize_fill n x v : magr (f_resize_fill triv fail n x v) (v_resize_fill triv n x v).
Proof.
  intros m v' m' H Hn. rewrite <- H. apply f_resize_fill_eq.
  destruct (Nat.eqb_spec n 0) as [->|Hn0]; [auto|right]. apply Hn.
  unfold v_resize_fill in H. destruct (Nat.eqb_spec n 0); [lia|].
  erewrite bind_ok in H by reflexivity.
  match type of H with ?k ?m1 = _ => assert (Hm : mmono k); [|apply Hm in H; simpl in H; lia] end.
  mono. destruct (v_ptr v); [|apply mono_ret]. apply mono_move.
Qed.
Lemma agr_fill n x : magr (f_fill triv fail n x) (v_fill triv n x).
Proof.
  unfold f_fill, v_fill. apply agr_bind; [apply agr_refl| |].
  2:{ intros ?. mono. apply mono_resize. }
  intros _. apply agr_bind; [apply agr_resize|intros v1; apply agr_refl|]. intros v1. mono.
Qed.
Lemma agr_copy v u : magr (f_copy_assign triv fail v u) (v_copy_assign triv v u).
Proof.
  unfold f_copy_assign, v_copy_assign. apply agr_bind; [apply agr_refl| |intros; mono; apply mono_resize].
  intros v0. apply agr_bind; [apply agr_resize|intros; apply agr_refl|]. intros v1. mono.
Qed.
Lemma agr_push x v : magr (f_push_back triv fail x v) (v_push_back triv x v).
Proof.
  unfold f_push_back, v_push_back. apply agr_bind; [|intros; apply agr_refl|intros; mono].
  destruct (_ <? _); [|apply agr_refl]. destruct (negb _); apply agr_resize.
Qed.
Lemma agr_pop v : magr (f_pop_back triv fail v) (v_pop_back triv v).
Proof.
  unfold f_pop_back, v_pop_back.
  apply agr_bind; [apply agr_refl| |intros; mono; destruct (_ <? _); [apply mono_resize|apply mono_ret]].
  intros _. apply agr_bind; [apply agr_refl| |intros; destruct (_ <? _); [apply mono_resize|apply mono_ret]].
  intros _. destruct (_ <? _); [apply agr_resize|apply agr_refl].
Qed.

Lemma wmono_obj id : wmono (obj id).
Proof. intros w v w'. unfold obj. destruct (w_objs w !! id); [|discriminate]. intros [= _ <-]. lia. Qed.
Lemma wmono_absent id : wmono (absent id).
Proof. intros w v w'. unfold absent. destruct (w_objs w !! id); [discriminate|]. intros [= _ <-]. lia. Qed.
Lemma wmono_set id v : wmono (set_obj id v).
Proof. intros w u w' [= _ <-]. simpl. lia. Qed.
Lemma wmono_del id : wmono (del_obj id).
Proof. intros w u w' [= _ <-]. simpl. lia. Qed.
Lemma wmono_lift {X} (f : M mem X) : mmono f -> wmono (lift f).
Proof.
  intros Hf w x w'. unfold lift. destruct (f (w_mem w)) as [[y m]| | |] eqn:E; try discriminate.
  intros [= <- <-]. simpl. eapply Hf, E.
Qed.
Lemma wagr_lift {X} (f g : M mem X) : magr f g -> wagr (lift f) (lift g).
Proof.
  intros Hf w x w' H Hn. unfold lift in *. destruct (g (w_mem w)) as [[y m]| | |] eqn:E; try discriminate.
  injection H as <- <-. rewrite (Hf _ _ _ E Hn). reflexivity.
Qed.
Ltac wm := repeat first
  [ apply mono_ret | apply mono_ub | apply wmono_obj | apply wmono_absent | apply wmono_set | apply wmono_del
  | apply wmono_lift; first [ apply mono_push | apply mono_pop | apply mono_resize | apply mono_resize_fill
      | apply mono_fill | apply mono_copy | apply mono_clear | apply mono_move_assign | apply mono_index | apply mono_iter ]
  | match goal with |- mono _ (bind _ _) => apply mono_bind; [|intros ?] end ].

Lemma wmono_load_z b i : mmono (load_z b i).
Proof. unfold load_z. destruct (i <? 0)%Z; mono. Qed.
Lemma wmono_store_z b i a : mmono (store_z b i a).
Proof. unfold store_z. destruct (i <? 0)%Z; mono. Qed.
Lemma wmono_step o : wmono (w_step triv o).
Proof.
  destruct o as [o|id|id src i]; cbn [w_step].
  - destruct o; cbn [v_step]; wm; try (destruct (_ =? _); wm); apply wmono_lift;
      unfold v_get, v_set, v_back, v_front, v_copy_new;
      first [apply mono_copy | mono; try apply mono_index; try apply wmono_load_z; try apply wmono_store_z].
  - wm.
  - wm. destruct (_ <? 0)%Z; wm.
Qed.
Lemma wmono_run {X} (p : wprog A X) : wmono (wrun triv p).
Proof.
  induction p as [x| | | |o k IH]; simpl; try (intros ? ? ? [=]; fail).
  - apply mono_ret.
  - apply mono_bind; [apply wmono_step|exact IH].
Qed.

Lemma wagr_step o : wagr (fw_step triv fail o) (w_step triv o).
Proof.
  destruct o as [o|id|id src i]; cbn [fw_step w_step].
  - destruct o; cbn [f_step v_step]; try apply agr_refl;
      (apply agr_bind; [apply agr_refl|intros ?|intros ?; wm; try (destruct (_ =? _); wm); try (apply wmono_lift, mono_copy)]).
    + apply agr_bind; [apply wagr_lift, agr_fill|intros; apply agr_refl|intros; wm].
    + apply agr_bind; [apply agr_refl| |intros; wm; apply wmono_lift, mono_copy].
      intros ?. apply agr_bind; [apply wagr_lift, agr_copy|intros; apply agr_refl|intros; wm].
    + apply agr_bind; [apply agr_refl| |intros; destruct (_ =? _); wm]. intros ?.
      destruct (_ =? _); [apply agr_refl|].
      apply agr_bind; [apply wagr_lift, agr_copy|intros; apply agr_refl|intros; wm].
    + apply agr_bind; [apply wagr_lift, agr_push|intros; apply agr_refl|intros; wm].
    + apply agr_bind; [apply wagr_lift, agr_pop|intros; apply agr_refl|intros; wm].
    + apply agr_bind; [apply wagr_lift, agr_resize|intros; apply agr_refl|intros; wm].
    + apply agr_bind; [apply wagr_lift, agr_resize_fill|intros; apply agr_refl|intros; wm].
  - apply agr_refl.
  - apply agr_bind; [apply agr_refl|intros v|intros; wm; destruct (_ <? 0)%Z; wm].
    apply agr_bind; [apply agr_refl|intros u|intros; wm; destruct (_ <? 0)%Z; wm].
    apply agr_bind; [apply agr_refl|intros j|intros; destruct (_ <? 0)%Z; wm].
    destruct (j <? 0)%Z; [apply agr_refl|].
    apply agr_bind; [apply wagr_lift, agr_push|intros; apply agr_refl|intros; wm].
Qed.
Lemma served {X} (p : wprog A X) : wagr (fwrun triv fail p) (wrun triv p).
Proof.
  induction p as [x| | | |o k IH]; simpl; try apply agr_refl.
  apply agr_bind; [apply wagr_step|exact IH|intros; apply wmono_run].
Qed.
Lemma crash_means_refused {X} (p : wprog A X) x w :
  wrun triv p world_init = Ok (x, w) ->
  fwrun triv fail p world_init = Ok (x, w) \/
  exists n, n < m_next (w_mem w) /\ fail n = true.
Proof.
  intros H. set (N := m_next (w_mem w)).
  assert (G : forall k, k <= N -> (forall n, n < k -> fail n = false) \/ exists n, n < N /\ fail n = true).
  { induction k as [|k IH]; intros Hk; [left; intros; lia|].
    destruct IH as [IH|IH]; [lia| |auto]. destruct (fail k) eqn:E; [right; exists k; split; [lia|exact E]|left].
    intros n Hn. destruct (Nat.eq_dec n k) as [->|]; [exact E|apply IH; lia]. }
  destruct (G N ltac:(lia)) as [G1|G1]; [left|auto]. apply served; assumption.
Qed.

End VecFailProofs.
