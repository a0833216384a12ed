(** Proofs about the Vector model (VectorModel.v). *)
From Verif Require Import Base VectorModel VectorSpec.

Section Proofs.
Context {A : Type} (triv : bool).
Notation cell := (option A).
Notation mem := (mem A).

(** Storage of capacity [n] whose first cells hold [l]. *)
Definition cells (l : list A) (n : nat) : list cell := map Some l ++ replicate (n - length l) None.

Lemma cells_length l n : length l <= n -> length (cells l n) = n.
Proof. intros. unfold cells. rewrite app_length, map_length, replicate_length. lia. Qed.

Lemma cells_lookup l n i a : l !! i = Some a -> cells l n !! i = Some (Some a).
Proof.
  intros H. unfold cells. apply lookup_app_l_Some.
  change (map Some l) with (Some <$> l). rewrite list_lookup_fmap, H. reflexivity.
Qed.

Lemma cells_lookup_raw l n i : length l <= i -> i < n -> cells l n !! i = Some None.
Proof.
  intros H1 H2. unfold cells. rewrite lookup_app_r by (rewrite map_length; lia).
  rewrite map_length. apply lookup_replicate_2. lia.
Qed.

Lemma cells_lookup_oob l n i : length l <= n -> n <= i -> cells l n !! i = None.
Proof. intros. apply lookup_ge_None_2. rewrite cells_length; lia. Qed.

Lemma cells_insert_end l n a :
  length l < n -> <[length l := Some a]> (cells l n) = cells (l ++ [a]) n.
Proof.
  intros H. unfold cells. rewrite app_length. simpl.
  replace (n - length l) with (S (n - (length l + 1))) by lia. simpl.
  rewrite insert_app_r_alt by (rewrite map_length; lia).
  rewrite map_length, Nat.sub_diag. simpl. rewrite map_app. simpl. rewrite <- app_assoc. reflexivity.
Qed.

Lemma cells_insert l n i a :
  i < length l -> <[i := Some a]> (cells l n) = cells (<[i := a]> l) n.
Proof.
  intros H. unfold cells. rewrite insert_length.
  rewrite insert_app_l by (rewrite map_length; lia).
  change (map Some l) with (Some <$> l). rewrite <- list_fmap_insert. reflexivity.
Qed.

Lemma live_count_app l1 l2 : live_count (A:=A) (l1 ++ l2) = live_count l1 + live_count l2.
Proof. unfold live_count. rewrite filter_app, app_length. reflexivity. Qed.
Lemma live_count_raw n : live_count (A:=A) (replicate n None) = 0.
Proof. unfold live_count. induction n; simpl; [reflexivity|]. rewrite filter_cons_False by discriminate. exact IHn. Qed.

Lemma replicate_snoc_cons {B} k (x : B) l : replicate k x ++ x :: l = x :: replicate k x ++ l.
Proof. induction k; simpl; [reflexivity|]. rewrite IHk. reflexivity. Qed.

Definition mem_ok (m : mem) : Prop := forall b, is_Some (m_blocks m !! b) -> b < m_next m.

(** [v] owns a block whose contents are [l]. *)
Definition vrep (m : mem) (v : vec) (l : list A) : Prop :=
  length l = v_size v /\ v_size v <= v_cap v /\
  match v_ptr v with
  | None => v_cap v = 0
  | Some b => v_cap v <> 0 /\ m_blocks m !! b = Some (cells l (v_cap v))
  end.

(** The heap without [v]'s own block. *)
Definition rest (m : mem) (v : vec) : gmap nat (list cell) :=
  match v_ptr v with Some b => delete b (m_blocks m) | None => m_blocks m end.

(** Outcome of an operation taking [v] to [v'] holding [l'] with capacity [c],
    touching nothing but [v]'s storage, after [k] constructor calls. *)
Definition vpost (m : mem) (v : vec) (m' : mem) (v' : vec) (l' : list A) (c k : nat) : Prop :=
  vrep m' v' l' /\ v_cap v' = c /\ mem_ok m' /\ rest m' v' = rest m v /\
  m_leaked m' = m_leaked m /\ m_ctor m' = m_ctor m + k.

Lemma vrep_empty m : vrep m v_empty [].
Proof. unfold vrep; simpl. auto. Qed.

Lemma vrep_size m v l : vrep m v l -> v_size v = length l.
Proof. intros [H _]. auto. Qed.
Lemma vrep_cap m v l : vrep m v l -> length l <= v_cap v.
Proof. intros (H & H1 & _). lia. Qed.

Lemma vrep_ptr m v l :
  vrep m v l -> l <> [] -> exists b, v_ptr v = Some b /\ m_blocks m !! b = Some (cells l (v_cap v)).
Proof.
  intros (H & H1 & H2) Hl. destruct (v_ptr v) as [b|].
  - exists b. tauto.
  - exfalso. destruct l; [congruence|]. simpl in H. lia.
Qed.

(** *** Loading and storing elements *)
Lemma load_ok m v l i a : vrep m v l -> l !! i = Some a -> load (v_ptr v) i m = Ok (a, m).
Proof.
  intros Hr Hi. destruct (vrep_ptr m v l Hr) as (b & Hb & Hc).
  { intros ->. discriminate. }
  unfold load. rewrite Hb, Hc, (cells_lookup _ _ _ _ Hi). reflexivity.
Qed.

Lemma load_ub m v l i : vrep m v l -> l !! i = None -> load (v_ptr v) i m = UB.
Proof.
  intros (H & H1 & H2) Hi. unfold load. destruct (v_ptr v) as [b|]; [|reflexivity].
  destruct H2 as [_ ->]. apply lookup_ge_None in Hi.
  destruct (decide (i < v_cap v)).
  - rewrite cells_lookup_raw by lia. reflexivity.
  - rewrite cells_lookup_oob by lia. reflexivity.
Qed.

Lemma rest_insert m v b cs nx lk ct :
  v_ptr v = Some b -> rest (Mem (<[b := cs]> (m_blocks m)) nx lk ct) v = rest m v.
Proof. intros H. unfold rest. rewrite H. simpl. apply delete_insert_delete. Qed.

Lemma mem_ok_insert m b cs lk ct :
  mem_ok m -> is_Some (m_blocks m !! b) -> mem_ok (Mem (<[b := cs]> (m_blocks m)) (m_next m) lk ct).
Proof.
  intros Hok Hb b' Hb'. simpl in *. destruct (decide (b = b')) as [->|Hne].
  - apply Hok, Hb.
  - rewrite lookup_insert_ne in Hb' by assumption. apply Hok, Hb'.
Qed.

Lemma store_ok m v l i a :
  vrep m v l -> mem_ok m -> i < length l ->
  exists m', store (v_ptr v) i a m = Ok (tt, m') /\ vpost m v m' v (<[i := a]> l) (v_cap v) 0.
Proof.
  intros Hr Hok Hi. destruct (vrep_ptr m v l Hr) as (b & Hb & Hc).
  { intros ->. simpl in Hi. lia. }
  destruct (lookup_lt_is_Some_2 l i Hi) as [a0 Ha0].
  unfold store. rewrite Hb, Hc, (cells_lookup _ _ _ _ Ha0).
  eexists. split; [reflexivity|]. destruct Hr as (H1 & H2 & H3). rewrite Hb in H3.
  unfold vpost, set_blocks. rewrite rest_insert by exact Hb.
  split_and!; try reflexivity; simpl; [| |lia].
  - unfold vrep. rewrite insert_length, Hb. split_and!; try tauto.
    simpl. rewrite lookup_insert, cells_insert by assumption. reflexivity.
  - apply mem_ok_insert; [assumption|]. rewrite Hc. eauto.
Qed.

(** *** resize *)
Definition move_body (n : nat) (newp : option nat) (oldb : nat) (i : nat) : M mem unit :=
  (if Nat.ltb i n then (a <- load (Some oldb) i ;; construct newp i a) else ret tt) ;;;
  destroy triv (Some oldb) i.

Lemma move_loop n newp oldb todo : forall done r m,
  (0 < n -> exists newb, newp = Some newb /\ newb <> oldb /\
     m_blocks m !! newb = Some (cells (take n done) n)) ->
  m_blocks m !! oldb = Some (replicate (length done) None ++ map Some todo ++ r) ->
  exists m', for_range (length done) (length todo) (move_body n newp oldb) m = Ok (tt, m') /\
    m_blocks m' !! oldb = Some (replicate (length done + length todo) None ++ r) /\
    (0 < n -> exists newb, newp = Some newb /\
       m_blocks m' !! newb = Some (cells (take n (done ++ todo)) n)) /\
    (forall b, b <> oldb -> newp <> Some b -> m_blocks m' !! b = m_blocks m !! b) /\
    m_next m' = m_next m /\ m_leaked m' = m_leaked m /\
    m_ctor m' = m_ctor m + (length (take n (done ++ todo)) - length (take n done)).
Proof.
  induction todo as [|a todo IH]; intros done r m Hnew Hold.
  - simpl. exists m. rewrite app_nil_r, Nat.add_0_r. split_and!; auto.
    + intros Hn. destruct (Hnew Hn) as (nb & ? & ? & ?). eauto.
    + lia.
  - simpl length. simpl for_range.
    assert (Hbody : exists m1, move_body n newp oldb (length done) m = Ok (tt, m1) /\
      m_blocks m1 !! oldb = Some (replicate (length (done ++ [a])) None ++ map Some todo ++ r) /\
      (0 < n -> exists newb, newp = Some newb /\ newb <> oldb /\
         m_blocks m1 !! newb = Some (cells (take n (done ++ [a])) n)) /\
      (forall b, b <> oldb -> newp <> Some b -> m_blocks m1 !! b = m_blocks m !! b) /\
      m_next m1 = m_next m /\ m_leaked m1 = m_leaked m /\
      m_ctor m1 = m_ctor m + (length (take n (done ++ [a])) - length (take n done))).
    { unfold move_body.
      assert (Hl : (replicate (length done) None ++ map Some (a :: todo) ++ r) !! length done
                   = Some (Some a)).
      { rewrite lookup_app_r by (rewrite replicate_length; lia).
        rewrite replicate_length, Nat.sub_diag. reflexivity. }
      assert (Hi : <[length done := None]> (replicate (length done) None ++ map Some (a :: todo) ++ r)
                   = replicate (length (done ++ [a])) None ++ map Some todo ++ r).
      { rewrite insert_app_r_alt by (rewrite replicate_length; lia).
        rewrite replicate_length, Nat.sub_diag. simpl.
        rewrite app_length. simpl. rewrite replicate_add, <- app_assoc. reflexivity. }
      simpl in Hl, Hi, Hold.
      destruct (Nat.ltb_spec (length done) n) as [Hlt|Hge].
      - destruct (Hnew ltac:(lia)) as (nb & -> & Hne & Hnb).
        rewrite take_ge in Hnb by lia.
        erewrite bind_ok; cycle 1.
        { unfold bind, load. rewrite Hold, Hl. unfold construct. rewrite Hnb.
          rewrite cells_lookup_raw by lia. reflexivity. }
        unfold destroy. simpl. rewrite lookup_insert_ne by congruence. rewrite Hold, Hl.
        eexists. split; [reflexivity|]. simpl.
        rewrite lookup_insert, Hi.
        split_and!; auto; try lia.
        + intros _. exists nb. split_and!; auto.
          rewrite lookup_insert_ne by congruence. rewrite lookup_insert.
          rewrite cells_insert_end by lia. rewrite take_ge by (rewrite app_length; simpl; lia). reflexivity.
        + intros b Hb1 Hb2. rewrite !lookup_insert_ne by congruence. reflexivity.
        + rewrite !take_length, app_length. simpl. lia.
      - rewrite bind_ret. unfold destroy. rewrite Hold, Hl.
        eexists. split; [reflexivity|]. simpl. rewrite lookup_insert, Hi.
        split_and!; auto.
        + intros Hn. destruct (Hnew Hn) as (nb & Hp & Hne & Hnb). exists nb. split_and!; auto.
          rewrite lookup_insert_ne by congruence. rewrite take_app_le by lia. exact Hnb.
        + intros b Hb1 Hb2. rewrite lookup_insert_ne by congruence. reflexivity.
        + rewrite !take_length, app_length. simpl. lia. }
    destruct Hbody as (m1 & Hb & Ho1 & Hn1 & Hf1 & Hx1 & Hl1 & Hc1).
    erewrite bind_ok by exact Hb.
    destruct (IH (done ++ [a]) r m1 Hn1 Ho1) as (m2 & Hr & Ho2 & Hn2 & Hf2 & Hx2 & Hl2 & Hc2).
    replace (S (length done)) with (length (done ++ [a])) by (rewrite app_length; simpl; lia).
    exists m2. rewrite <- (app_assoc done [a] todo) in *. simpl in *.
    rewrite app_length in Ho2. simpl in Ho2.
    split_and!; auto; try congruence.
    + rewrite Ho2. do 3 f_equal. lia.
    + intros b H1 H2. rewrite Hf2 by assumption. auto.
    + rewrite Hc2, Hc1. rewrite !take_length, !app_length. simpl. lia.
Qed.

Lemma for_range_ext {S'} (f g : nat -> M S' unit) (H : forall i s, f i s = g i s) :
  forall c st s, for_range st c f s = for_range st c g s.
Proof.
  induction c; intros; simpl; [reflexivity|]. unfold bind. rewrite H.
  destruct (g st s) as [[]| | |]; auto.
Qed.

Lemma dealloc_ok (m : mem) b cs n :
  m_blocks m !! b = Some cs -> length cs = n ->
  dealloc b n m = Ok (tt, Mem (delete b (m_blocks m)) (m_next m) (m_leaked m + live_count cs) (m_ctor m)).
Proof. intros H <-. unfold dealloc. rewrite H, Nat.eqb_refl. reflexivity. Qed.

(** Releasing an old block after moving [l] (up to [n] elements) to a new one. *)
Lemma move_and_free m v l n oldb :
  vrep m v l -> v_ptr v = Some oldb -> mem_ok m -> n <> 0 ->
  exists m1, (for_range 0 (v_size v) (move_body n (Some (m_next m)) oldb) ;;; dealloc oldb (v_cap v))
      (Mem (<[m_next m := replicate n None]> (m_blocks m)) (S (m_next m)) (m_leaked m) (m_ctor m)) = Ok (tt, m1) /\
    m_blocks m1 = <[m_next m := cells (take n l) n]> (delete oldb (m_blocks m)) /\
    m_next m1 = S (m_next m) /\ m_leaked m1 = m_leaked m /\ m_ctor m1 = m_ctor m + length (take n l).
Proof.
  intros (Hs & Hc & Hp) Hptr Hok Hn. rewrite Hptr in Hp. destruct Hp as [Hc0 Hb].
  assert (Hlt : oldb < m_next m) by (apply Hok; rewrite Hb; eauto).
  set (mm := Mem (<[m_next m := replicate n None]> (m_blocks m)) (S (m_next m)) (m_leaked m) (m_ctor m)).
  destruct (move_loop n (Some (m_next m)) oldb l [] (replicate (v_cap v - length l) None) mm)
    as (m1 & Hr & Ho & Hw & Hf & Hx & Hl & Hk).
  { intros _. exists (m_next m). split_and!; auto; [lia|]. simpl. rewrite lookup_insert.
    unfold cells. rewrite take_nil. simpl. rewrite Nat.sub_0_r. reflexivity. }
  { simpl. rewrite lookup_insert_ne by lia. exact Hb. }
  simpl in Hr. rewrite <- Hs. erewrite bind_ok by exact Hr.
  rewrite (dealloc_ok _ _ _ _ Ho) by (rewrite app_length, !replicate_length; simpl; lia).
  eexists. split; [reflexivity|]. simpl.
  destruct (Hw ltac:(lia)) as (nb & [= <-] & Hnb).
  split_and!.
  - apply map_eq. intros b. destruct (decide (b = oldb)) as [->|Hne].
    + rewrite lookup_delete, lookup_insert_ne, lookup_delete by lia. reflexivity.
    + rewrite lookup_delete_ne by congruence.
      destruct (decide (b = m_next m)) as [->|Hne2].
      * rewrite lookup_insert, Hnb. reflexivity.
      * rewrite lookup_insert_ne, lookup_delete_ne by congruence.
        rewrite Hf by congruence. simpl. rewrite lookup_insert_ne by congruence. reflexivity.
  - rewrite Hx. reflexivity.
  - rewrite Hl. simpl. rewrite live_count_app, !live_count_raw. lia.
  - rewrite Hk. simpl. rewrite take_nil. simpl. lia.
Qed.

Lemma mem_ok_fresh m : mem_ok m -> m_blocks m !! m_next m = None.
Proof.
  intros Hok. destruct (m_blocks m !! m_next m) eqn:E; [|reflexivity].
  specialize (Hok (m_next m) ltac:(eauto)). lia.
Qed.

Lemma rest_mem_ok m v b : mem_ok m -> is_Some (rest m v !! b) -> b < m_next m.
Proof.
  intros Hok Hb. apply Hok. unfold rest in Hb. destruct (v_ptr v) as [p|]; [|exact Hb].
  destruct (decide (p = b)) as [->|]; [rewrite lookup_delete in Hb; destruct Hb; congruence|].
  rewrite lookup_delete_ne in Hb by assumption. exact Hb.
Qed.

(** A state holding exactly [l] in a fresh block of [n] cells, besides [v]'s rest. *)
Lemma post_new_block m v m1 l n k :
  mem_ok m -> n <> 0 -> length l <= n ->
  m_blocks m1 = <[m_next m := cells l n]> (rest m v) ->
  m_next m1 = S (m_next m) -> m_leaked m1 = m_leaked m -> m_ctor m1 = m_ctor m + k ->
  vpost m v m1 (Vec (length l) n (Some (m_next m))) l n k.
Proof.
  intros Hok Hn Hlen Hb Hx Hl Hk. unfold vpost. split_and!; auto.
  - unfold vrep; simpl. split_and!; auto. rewrite Hb, lookup_insert. reflexivity.
  - intros b Hs. rewrite Hb in Hs. rewrite Hx. destruct (decide (b = m_next m)) as [->|]; [lia|].
    rewrite lookup_insert_ne in Hs by congruence. pose proof (rest_mem_ok _ _ _ Hok Hs). lia.
  - unfold rest at 1. simpl. rewrite Hb, delete_insert; [reflexivity|].
    destruct (rest m v !! m_next m) eqn:E; [|reflexivity].
    pose proof (rest_mem_ok m v (m_next m) Hok ltac:(eauto)). lia.
Qed.

Lemma post_no_block m v m1 k :
  mem_ok m ->
  m_blocks m1 = rest m v ->
  m_next m1 = m_next m -> m_leaked m1 = m_leaked m -> m_ctor m1 = m_ctor m + k ->
  vpost m v m1 v_empty [] 0 k.
Proof.
  intros Hok Hb Hx Hl Hk. unfold vpost. split_and!; auto.
  - apply vrep_empty.
  - intros b Hs. rewrite Hb in Hs. rewrite Hx. apply (rest_mem_ok m v); assumption.
Qed.

Lemma v_resize_ok n v l m :
  vrep m v l -> mem_ok m ->
  exists v' m', v_resize triv n v m = Ok (v', m') /\
    vpost m v m' v' (take n l) n (length (take n l)).
Proof.
  intros Hr Hok. pose proof Hr as (Hs & Hc & Hp). unfold v_resize.
  assert (Hsz : (if n <? v_size v then n else v_size v) = length (take n l)).
  { rewrite take_length. destruct (Nat.ltb_spec n (v_size v)); lia. }
  rewrite Hsz. destruct (Nat.eqb_spec n 0) as [->|Hn].
  - rewrite bind_ret. destruct (v_ptr v) as [b|] eqn:Hb.
    + destruct Hp as [Hc0 Hcs]. destruct (Nat.eqb_spec (v_cap v) 0); [lia|]. simpl negb. cbn [dassert].
      rewrite bind_assoc, bind_ret.
      destruct (move_loop 0 None b l [] (replicate (v_cap v - length l) None) m)
        as (m1 & Hrun & Ho & _ & Hf & Hx & Hl & Hk); [lia|exact Hcs|].
      simpl in Hrun. rewrite <- Hs.
      erewrite bind_ok; cycle 1.
      { erewrite bind_ok by exact Hrun.
        apply (dealloc_ok _ _ _ _ Ho). rewrite app_length, !replicate_length. simpl. lia. }
      do 2 eexists. split; [reflexivity|]. apply post_no_block; simpl; auto.
      * unfold rest. rewrite Hb. apply map_eq. intros b'. destruct (decide (b = b')) as [->|].
        -- rewrite !lookup_delete. reflexivity.
        -- rewrite !lookup_delete_ne by assumption. apply Hf; congruence.
      * rewrite Hl, live_count_app, !live_count_raw. lia.
    + rewrite bind_ret. do 2 eexists. split; [reflexivity|].
      apply post_no_block; simpl; auto. unfold rest. rewrite Hb. reflexivity.
  - erewrite bind_ok by reflexivity.
    destruct (v_ptr v) as [b|] eqn:Hb.
    + destruct Hp as [Hc0 Hcs]. destruct (Nat.eqb_spec (v_cap v) 0); [lia|]. cbn [negb dassert].
      rewrite bind_assoc, bind_ret.
      destruct (move_and_free m v l n b Hr Hb Hok Hn) as (m1 & Hrun & Hbs & Hx & Hl & Hk).
      erewrite bind_ok by exact Hrun.
      do 2 eexists. split; [reflexivity|].
      apply post_new_block; auto.
      * rewrite take_length. lia.
      * unfold rest. rewrite Hb. exact Hbs.
    + rewrite bind_ret. do 2 eexists. split; [reflexivity|].
      assert (l = []) as -> by (destruct l; [reflexivity|simpl in *; lia]).
      rewrite take_nil. apply post_new_block; simpl; auto; try lia.
      unfold rest. rewrite Hb. unfold cells. simpl. rewrite Nat.sub_0_r. reflexivity.
Qed.

(** *** vpost composition *)
Lemma vpost_trans m v m1 v1 l1 c1 k1 m2 v2 l2 c2 k2 :
  vpost m v m1 v1 l1 c1 k1 -> vpost m1 v1 m2 v2 l2 c2 k2 -> vpost m v m2 v2 l2 c2 (k1 + k2).
Proof.
  intros (?&?&?&?&?&?) (?&?&?&?&?&?). unfold vpost. split_and!; auto; try congruence. lia.
Qed.
Lemma vpost_refl m v l : vrep m v l -> mem_ok m -> vpost m v m v l (v_cap v) 0.
Proof. intros. unfold vpost. split_and!; auto. Qed.

(** Constructing past the end. *)
Lemma construct_ok m v l a :
  vrep m v l -> mem_ok m -> length l < v_cap v ->
  exists m', construct (v_ptr v) (v_size v) a m = Ok (tt, m') /\
    vpost m v m' (Vec (v_size v + 1) (v_cap v) (v_ptr v)) (l ++ [a]) (v_cap v) 1.
Proof.
  intros (Hs & Hc & Hp) Hok Hlt. destruct (v_ptr v) as [b|] eqn:Hb; [|lia].
  destruct Hp as [Hc0 Hcs]. unfold construct. rewrite Hcs, cells_lookup_raw by lia.
  eexists. split; [reflexivity|]. unfold vpost. split_and!; simpl; auto; try lia.
  - unfold vrep; simpl. rewrite app_length; simpl. split_and!; try lia.
    rewrite lookup_insert, <- Hs, cells_insert_end by lia. reflexivity.
  - apply mem_ok_insert; [assumption|]. rewrite Hcs. eauto.
  - unfold rest. rewrite Hb. simpl. apply delete_insert_delete.
Qed.

Definition grow (size cap : nat) : nat :=
  if cap <? size + 1 then (if size =? 0 then 2 else 2 * size) else cap.
(** The constructor calls push_back makes: the relocated elements and the new one. *)
Definition push_cost (size cap : nat) : nat := (if cap <? size + 1 then size else 0) + 1.

Lemma v_push_back_gen x a v l m :
  vrep m v l -> mem_ok m ->
  (forall m1 v1 c k, vpost m v m1 v1 l c k -> read_arg x m1 = Ok (a, m1)) ->
  exists v' m', v_push_back triv x v m = Ok (v', m') /\
    vpost m v m' v' (l ++ [a]) (grow (length l) (v_cap v)) (push_cost (length l) (v_cap v)).
Proof.
  intros Hr Hok Hx. unfold v_push_back, grow, push_cost. rewrite (vrep_size _ _ _ Hr).
  pose proof (vrep_cap _ _ _ Hr) as Hcap.
  assert (H1 : exists v1 m1,
    (if v_cap v <? length l + 1
     then if negb (length l =? 0) then v_resize triv (2 * length l) v else v_resize triv 2 v
     else ret v) m = Ok (v1, m1) /\
    vpost m v m1 v1 l (if v_cap v <? length l + 1 then if length l =? 0 then 2 else 2 * length l else v_cap v)
      (if v_cap v <? length l + 1 then length l else 0)).
  { destruct (Nat.ltb_spec (v_cap v) (length l + 1)).
    - destruct (Nat.eqb_spec (length l) 0) as [Hl|Hl]; simpl negb; cbn iota.
      + destruct (v_resize_ok 2 v l m Hr Hok) as (v1 & m1 & Hrun & Hpost).
        rewrite take_ge in Hpost by lia. rewrite Hl in Hpost. rewrite Hl. eauto.
      + destruct (v_resize_ok (2 * length l) v l m Hr Hok) as (v1 & m1 & Hrun & Hpost).
        rewrite take_ge in Hpost by lia. eauto.
    - do 2 eexists. split; [reflexivity|]. apply vpost_refl; assumption. }
  destruct H1 as (v1 & m1 & Hrun & Hpost). erewrite bind_ok by exact Hrun.
  erewrite bind_ok by (eapply Hx; exact Hpost).
  pose proof Hpost as (Hr1 & Hc1 & Hok1 & _).
  destruct (construct_ok m1 v1 l a Hr1 Hok1) as (m2 & Hcons & Hpost2).
  { rewrite Hc1. destruct (Nat.ltb_spec (v_cap v) (length l + 1)); [|lia].
    destruct (Nat.eqb_spec (length l) 0); lia. }
  erewrite bind_ok by exact Hcons. do 2 eexists. split; [reflexivity|].
  rewrite Hc1 in Hpost2 |- *.
  eapply vpost_trans; eassumption.
Qed.

Lemma v_push_back_ok a v l m :
  vrep m v l -> mem_ok m ->
  exists v' m', v_push_back triv (AVal a) v m = Ok (v', m') /\
    vpost m v m' v' (l ++ [a]) (grow (length l) (v_cap v)) (push_cost (length l) (v_cap v)).
Proof. intros Hr Hok. apply v_push_back_gen; auto. Qed.

(** *** Arguments that alias the vector's own storage *)
Lemma v_resize_ptr n v (m : mem) v' m' :
  n <> 0 -> v_resize triv n v m = Ok (v', m') -> v_ptr v' = Some (m_next m).
Proof.
  intros Hn Hrun. unfold v_resize in Hrun. destruct (Nat.eqb_spec n 0); [lia|].
  erewrite bind_ok in Hrun by reflexivity.
  apply bind_inv in Hrun as ([] & m1 & _ & Hrun). injection Hrun as <- _. reflexivity.
Qed.

Lemma dangling (m : mem) v m1 v1 l c k b i :
  mem_ok m -> v_ptr v = Some b -> is_Some (m_blocks m !! b) ->
  vpost m v m1 v1 l c k -> v_ptr v1 = Some (m_next m) -> load (Some b) i m1 = UB.
Proof.
  intros Hok Hb Hs (_ & _ & _ & Hrest & _) Hp. unfold load.
  assert (Hlt : b < m_next m) by (apply Hok; exact Hs).
  assert (Hq : rest m1 v1 !! b = None).
  { rewrite Hrest. unfold rest. rewrite Hb. apply lookup_delete. }
  unfold rest in Hq. rewrite Hp, lookup_delete_ne in Hq by lia. rewrite Hq. reflexivity.
Qed.

Lemma v_push_own_full v l (m : mem) i a :
  vrep m v l -> mem_ok m -> l !! i = Some a -> length l = v_cap v ->
  v_push_back triv (ARef (v_ptr v) i) v m = UB.
Proof.
  intros Hr Hok Ha Hfull. pose proof (vrep_size _ _ _ Hr) as Hsz.
  assert (Hi : i < length l) by (eapply lookup_lt_Some; exact Ha).
  unfold v_push_back. destruct (Nat.ltb_spec (v_cap v) (v_size v + 1)); [|lia].
  destruct (Nat.eqb_spec (v_size v) 0); [lia|]. cbn [negb].
  destruct (v_resize_ok (2 * v_size v) v l _ Hr Hok) as (v1 & m1 & Hrun & Hpost).
  erewrite bind_ok by exact Hrun. cbn [read_arg]. apply bind_ub.
  destruct (vrep_ptr _ _ _ Hr) as (b & Hb & Hbs); [destruct l; [discriminate|congruence]|].
  rewrite Hb. eapply dangling; eauto. eapply v_resize_ptr; [|exact Hrun]. lia.
Qed.

Lemma v_push_own_room v l (m : mem) i a :
  vrep m v l -> mem_ok m -> l !! i = Some a -> length l < v_cap v ->
  exists v' m', v_push_back triv (ARef (v_ptr v) i) v m = Ok (v', m') /\
    vpost m v m' v' (l ++ [a]) (v_cap v) 1.
Proof.
  intros Hr Hok Ha Hlt. pose proof (vrep_size _ _ _ Hr) as Hsz.
  unfold v_push_back. destruct (Nat.ltb_spec (v_cap v) (v_size v + 1)); [lia|].
  rewrite bind_ret. cbn [read_arg].
  erewrite bind_ok by (eapply load_ok; eassumption).
  destruct (construct_ok m v l a Hr Hok ltac:(lia)) as (m' & Hc & Hpost).
  erewrite bind_ok by exact Hc. do 2 eexists. split; [reflexivity|exact Hpost].
Qed.

Lemma destroy_last_ok m v l a :
  vrep m v (l ++ [a]) -> mem_ok m ->
  exists m', destroy triv (v_ptr v) (v_size v - 1) m = Ok (tt, m') /\
    vpost m v m' (Vec (v_size v - 1) (v_cap v) (v_ptr v)) l (v_cap v) 0.
Proof.
  intros Hr Hok. destruct (vrep_ptr _ _ _ Hr) as (b & Hb & Hcs); [destruct l; discriminate|].
  pose proof Hr as (Hs & Hc & Hp). rewrite app_length in Hs. simpl in Hs.
  unfold destroy. rewrite Hb, Hcs. replace (v_size v - 1) with (length l) by lia.
  rewrite (cells_lookup _ _ _ a) by (apply list_lookup_middle; reflexivity).
  eexists. split; [reflexivity|]. unfold vpost. split_and!; simpl; auto; try lia.
  - unfold vrep; simpl. split_and!; try lia.
    rewrite lookup_insert. f_equal. unfold cells. rewrite app_length. simpl.
    rewrite map_app, <- app_assoc. simpl.
    rewrite insert_app_r_alt by (rewrite map_length; lia).
    rewrite map_length, Nat.sub_diag. simpl.
    replace (v_cap v - length l) with (S (v_cap v - (length l + 1))) by lia. reflexivity.
  - apply mem_ok_insert; [assumption|]. rewrite Hcs. eauto.
  - unfold rest. rewrite Hb. simpl. apply delete_insert_delete.
Qed.

Definition shrink (size cap : nat) : nat := if size <? cap / 3 then cap / 2 else cap.
Definition pop_cost (size cap : nat) : nat := if size <? cap / 3 then size else 0.

Lemma v_pop_back_ok a v l m :
  vrep m v (l ++ [a]) -> mem_ok m ->
  exists v' m', v_pop_back triv v m = Ok (v', m') /\
    vpost m v m' v' l (shrink (length l) (v_cap v)) (pop_cost (length l) (v_cap v)).
Proof.
  intros Hr Hok. unfold v_pop_back, shrink, pop_cost.
  pose proof (vrep_size _ _ _ Hr) as Hs. rewrite app_length in Hs. simpl in Hs.
  destruct (Nat.ltb_spec 0 (v_size v)); [|lia]. cbn [dassert]. rewrite bind_ret.
  destruct (destroy_last_ok m v l a Hr Hok) as (m1 & Hd & Hpost).
  erewrite bind_ok by exact Hd. replace (v_size v - 1) with (length l) in * by lia.
  destruct (Nat.ltb_spec (length l) (v_cap v / 3)) as [Hlt|Hge].
  - pose proof Hpost as (Hr1 & Hc1 & Hok1 & _).
    destruct (v_resize_ok (v_cap v / 2) _ _ _ Hr1 Hok1) as (v2 & m2 & Hrun & Hpost2).
    assert (v_cap v / 3 <= v_cap v / 2).
    { apply Nat.div_le_compat_l. lia. }
    rewrite take_ge in Hpost2 by lia.
    do 2 eexists. split; [exact Hrun|].
    apply (vpost_trans _ _ _ _ _ _ _ _ _ _ _ _ Hpost Hpost2).
  - do 2 eexists. split; [reflexivity|]. exact Hpost.
Qed.

Lemma v_pop_back_empty v m : vrep m v [] -> v_pop_back triv v m = Abort.
Proof.
  intros Hr. unfold v_pop_back. rewrite (vrep_size _ _ _ Hr). reflexivity.
Qed.

(** *** clear *)
Lemma destroy_loop b (l : list A) : forall k r (m : mem),
  m_blocks m !! b = Some (replicate k None ++ map Some l ++ r) ->
  exists m', for_range k (length l) (fun i => destroy triv (Some b) i) m = Ok (tt, m') /\
    m_blocks m' !! b = Some (replicate (k + length l) None ++ r) /\
    (forall b', b' <> b -> m_blocks m' !! b' = m_blocks m !! b') /\
    m_next m' = m_next m /\ m_leaked m' = m_leaked m /\ m_ctor m' = m_ctor m.
Proof.
  induction l as [|a l IH]; intros k r m Hb; simpl.
  - exists m. rewrite Nat.add_0_r. split_and!; auto.
  - assert (Hl : (replicate k None ++ map Some (a :: l) ++ r) !! k = Some (Some a)).
    { rewrite lookup_app_r by (rewrite replicate_length; lia).
      rewrite replicate_length, Nat.sub_diag. reflexivity. }
    erewrite bind_ok; cycle 1.
    { unfold destroy. rewrite Hb, Hl. reflexivity. }
    destruct (IH (S k) r (set_blocks m (<[b := <[k := None]> (replicate k None ++ map Some (a :: l) ++ r)]> (m_blocks m))))
      as (m' & Hrun & Ho & Hf & Hx & Hl' & Hk).
    { simpl. rewrite lookup_insert. f_equal.
      rewrite insert_app_r_alt by (rewrite replicate_length; lia).
      rewrite replicate_length, Nat.sub_diag. simpl.
      apply replicate_snoc_cons. }
    exists m'. split_and!; auto.
    + rewrite Ho. do 3 f_equal. lia.
    + intros b' Hne. rewrite Hf by assumption. simpl. rewrite lookup_insert_ne by congruence. reflexivity.
Qed.

Lemma v_clear_ok v l m :
  vrep m v l -> mem_ok m ->
  exists m', v_clear triv v m = Ok (v_empty, m') /\ vpost m v m' v_empty [] 0 0.
Proof.
  intros (Hs & Hc & Hp) Hok. unfold v_clear. destruct (v_ptr v) as [b|] eqn:Hb.
  - destruct Hp as [Hc0 Hcs].
    destruct (destroy_loop b l 0 (replicate (v_cap v - length l) None) m Hcs)
      as (m1 & Hrun & Ho & Hf & Hx & Hl & Hk).
    rewrite <- Hs. erewrite bind_ok; cycle 1.
    { erewrite bind_ok by exact Hrun.
      apply (dealloc_ok _ _ _ _ Ho). rewrite app_length, !replicate_length. simpl. lia. }
    eexists. split; [reflexivity|]. apply post_no_block; simpl; auto; try lia.
    + unfold rest. rewrite Hb. apply map_eq. intros b'. destruct (decide (b = b')) as [->|].
      * rewrite !lookup_delete. reflexivity.
      * rewrite !lookup_delete_ne by assumption. apply Hf; congruence.
    + rewrite Hl, live_count_app, !live_count_raw. lia.
  - rewrite bind_ret. eexists. split; [reflexivity|].
    apply post_no_block; simpl; auto. unfold rest. rewrite Hb. reflexivity.
Qed.

(** *** fills *)
Lemma fill_loop a v k : forall l m,
  vrep m v l -> mem_ok m -> length l + k <= v_cap v ->
  exists m', for_range (length l) k (fun i => x <- read_arg (AVal a) ;; construct (v_ptr v) i x) m = Ok (tt, m') /\
    vpost m v m' (Vec (length l + k) (v_cap v) (v_ptr v)) (l ++ replicate k a) (v_cap v) k.
Proof.
  revert v. induction k as [|k IH]; intros v l m Hr Hok Hle; simpl.
  - exists m. split; [reflexivity|]. rewrite app_nil_r, Nat.add_0_r.
    replace (Vec (length l) (v_cap v) (v_ptr v)) with v; [apply vpost_refl; assumption|].
    destruct Hr as [-> _]. destruct v; reflexivity.
  - destruct (construct_ok m v l a Hr Hok ltac:(lia)) as (m1 & Hc & Hpost).
    rewrite (vrep_size _ _ _ Hr) in Hc, Hpost.
    erewrite bind_ok; cycle 1.
    { unfold bind at 1. cbn. exact Hc. }
    pose proof Hpost as (Hr1 & Hc1 & Hok1 & _).
    destruct (IH _ (l ++ [a]) m1 Hr1 Hok1) as (m2 & Hrun & Hpost2).
    { simpl. rewrite app_length. simpl. lia. }
    rewrite app_length in Hrun, Hpost2. simpl in Hrun, Hpost2.
    rewrite Nat.add_1_r in Hrun. exists m2. split; [exact Hrun|].
    rewrite <- app_assoc in Hpost2. simpl in Hpost2.
    replace (length l + S k) with (length l + 1 + k) by lia.
    change (S k) with (1 + k). eapply vpost_trans; eassumption.
Qed.

Lemma v_fill_ok n a m :
  n <> 0 -> mem_ok m ->
  exists v' m', v_fill triv n (AVal a) m = Ok (v', m') /\
    vpost m v_empty m' v' (replicate n a) n n.
Proof.
  intros Hn Hok. unfold v_fill. destruct (Nat.eqb_spec n 0); [lia|]. cbn [negb dassert].
  rewrite bind_ret.
  destruct (v_resize_ok n v_empty [] m (vrep_empty m) Hok) as (v1 & m1 & Hrun & Hpost).
  erewrite bind_ok by exact Hrun. rewrite take_nil in Hpost.
  pose proof Hpost as (Hr1 & Hc1 & Hok1 & _).
  destruct (fill_loop a v1 n [] m1 Hr1 Hok1 ltac:(simpl; lia)) as (m2 & Hf & Hpost2).
  simpl in Hf. erewrite bind_ok by exact Hf. do 2 eexists. split; [reflexivity|].
  simpl in Hpost2. rewrite Hc1 in Hpost2. apply (vpost_trans _ _ _ _ _ _ 0 _ _ _ _ n Hpost Hpost2).
Qed.

Lemma v_fill_abort a m : v_fill (A:=A) triv 0 (AVal a) m = Abort.
Proof. reflexivity. Qed.

Lemma v_resize_fill_ok n a v l m :
  vrep m v l -> mem_ok m ->
  exists v' m', v_resize_fill triv n (AVal a) v m = Ok (v', m') /\
    vpost m v m' v' (take n l ++ replicate (n - length l) a) n n.
Proof.
  intros Hr Hok. unfold v_resize_fill. destruct (Nat.eqb_spec n 0) as [->|Hn].
  - destruct (v_resize_ok 0 v l m Hr Hok) as (v1 & m1 & Hrun & Hpost).
    do 2 eexists. split; [exact Hrun|]. simpl. exact Hpost.
  - erewrite bind_ok by reflexivity.
    set (mm := Mem (<[m_next m := replicate n None]> (m_blocks m)) (S (m_next m)) (m_leaked m) (m_ctor m)).
    set (v1 := Vec (length (take n l)) n (Some (m_next m))).
    assert (H1 : exists m1,
      (match v_ptr v with
       | Some oldb => for_range 0 (v_size v) (fun i =>
           (if Nat.ltb i n then (a <- load (Some oldb) i ;; construct (Some (m_next m)) i a) else ret tt) ;;;
           destroy triv (Some oldb) i) ;;; dealloc oldb (v_cap v)
       | None => ret tt end) mm = Ok (tt, m1) /\
      vpost m v m1 v1 (take n l) n (length (take n l))).
    { destruct (v_ptr v) as [b|] eqn:Hb.
      - destruct (move_and_free m v l n b Hr Hb Hok Hn) as (m1 & Hrun & Hbs & Hx & Hl & Hk).
        exists m1. split; [exact Hrun|]. apply post_new_block; auto; [rewrite take_length; lia|].
        unfold rest. rewrite Hb. exact Hbs.
      - pose proof Hr as (Hs & Hc & Hp). rewrite Hb in Hp.
        assert (l = []) as -> by (destruct l; [reflexivity|simpl in *; lia]).
        eexists. split; [reflexivity|]. unfold v1. rewrite take_nil.
        apply post_new_block; simpl; auto; try lia.
        unfold rest. rewrite Hb. unfold cells. simpl. rewrite Nat.sub_0_r. reflexivity. }
    destruct H1 as (m1 & Hrun & Hpost). erewrite bind_ok by exact Hrun.
    pose proof Hpost as (Hr1 & Hc1 & Hok1 & _).
    rewrite (vrep_size _ _ _ Hr).
    destruct (fill_loop a v1 (n - length l) (take n l) m1 Hr1 Hok1) as (m2 & Hf & Hpost2).
    { simpl. rewrite take_length. lia. }
    assert (Hf' : for_range (length l) (n - length l)
      (fun i => a0 <- read_arg (AVal a) ;; construct (Some (m_next m)) i a0) m1 = Ok (tt, m2)).
    { destruct (decide (length l <= n)).
      - rewrite take_ge in Hf by lia. exact Hf.
      - replace (n - length l) with 0 in * by lia. exact Hf. }
    erewrite bind_ok by exact Hf'. do 2 eexists. split; [reflexivity|].
    unfold v1 in Hpost2. simpl in Hpost2.
    pose proof (vpost_trans _ _ _ _ _ _ _ _ _ _ _ _ Hpost Hpost2) as Hp3.
    replace (length (take n l) + (n - length l)) with n in Hp3 by (rewrite take_length; lia).
    exact Hp3.
Qed.

(** *** copies *)
(** Copying [l] held by [u] into raw storage owned by [v]. *)
Lemma copy_loop u (todo : list A) : forall done v m,
  triv = true ->
  vrep m v done -> mem_ok m -> length done + length todo <= v_cap v ->
  (forall b, v_ptr u = Some b -> v_ptr v <> Some b) ->
  vrep m u (done ++ todo) ->
  exists m', for_range (length done) (length todo) (fun i =>
      destroy triv (v_ptr v) i ;;; a <- load (v_ptr u) i ;; construct (v_ptr v) i a) m = Ok (tt, m') /\
    vpost m v m' (Vec (length done + length todo) (v_cap v) (v_ptr v)) (done ++ todo) (v_cap v) (length todo).
Proof.
  induction todo as [|a todo IH]; intros done v m Ht Hr Hok Hle Hsep Hu; simpl.
  - exists m. split; [reflexivity|]. rewrite app_nil_r, Nat.add_0_r.
    replace (Vec (length done) (v_cap v) (v_ptr v)) with v; [apply vpost_refl; assumption|].
    destruct Hr as [-> _]. destruct v; reflexivity.
  - assert (Hd : destroy triv (v_ptr v) (length done) m = Ok (tt, m)).
    { destruct Hr as (Hs & Hc & Hp). simpl in Hle. destruct (v_ptr v) as [b|]; [|lia].
      destruct Hp as [_ Hcs]. unfold destroy. rewrite Hcs, cells_lookup_raw by lia. rewrite Ht. reflexivity. }
    assert (Hl : load (v_ptr u) (length done) m = Ok (a, m)).
    { apply (load_ok m u (done ++ a :: todo)); [exact Hu|]. apply list_lookup_middle. reflexivity. }
    destruct (construct_ok m v done a Hr Hok ltac:(simpl in Hle; lia)) as (m1 & Hc & Hpost).
    rewrite (vrep_size _ _ _ Hr) in Hc, Hpost.
    erewrite bind_ok; cycle 1.
    { erewrite bind_ok by exact Hd. erewrite bind_ok by exact Hl. exact Hc. }
    pose proof Hpost as (Hr1 & Hc1 & Hok1 & Hrest1 & _).
    destruct (IH (done ++ [a]) _ m1 Ht Hr1 Hok1) as (m2 & Hrun & Hpost2).
    + simpl. rewrite app_length. simpl in *. lia.
    + simpl. exact Hsep.
    + rewrite <- app_assoc. simpl. destruct Hu as (Hus & Huc & Hup). unfold vrep. split; [exact Hus|]. split; [exact Huc|].
      destruct (v_ptr u) as [b|] eqn:Hb; [|exact Hup].
      destruct Hup as [Hu0 Hub]. split; [exact Hu0|].
      assert (Hq : rest m v !! b = Some (cells (done ++ a :: todo) (v_cap u))).
      { unfold rest. specialize (Hsep b eq_refl). destruct (v_ptr v); [|exact Hub].
        rewrite lookup_delete_ne by congruence. exact Hub. }
      rewrite <- Hrest1 in Hq. unfold rest in Hq. simpl in Hq. specialize (Hsep b eq_refl).
      destruct (v_ptr v); [|exact Hq]. rewrite lookup_delete_ne in Hq by congruence. exact Hq.
    + simpl in Hrun, Hpost2. rewrite app_length in Hrun, Hpost2. simpl in Hrun, Hpost2.
      rewrite Nat.add_1_r in Hrun. exists m2. split; [exact Hrun|].
      rewrite <- app_assoc in Hpost2. simpl in Hpost2.
      replace (length done + S (length todo)) with (length done + 1 + length todo) by lia.
      change (S (length todo)) with (1 + length todo). eapply vpost_trans; eassumption.
Qed.

(** [u] keeps its contents when an operation only touches [v]'s storage. *)
Lemma vrep_frame m v m' v' u l :
  rest m' v' = rest m v -> vrep m u l ->
  (forall b, v_ptr u = Some b -> v_ptr v <> Some b) ->
  vrep m' u l /\ (forall b, v_ptr u = Some b -> v_ptr v' <> Some b).
Proof.
  intros Hrest (Hs & Hc & Hp) Hsep.
  destruct (v_ptr u) as [b|] eqn:Hb.
  - destruct Hp as [H0 Hb1]. specialize (Hsep b eq_refl).
    assert (Hq : rest m v !! b = Some (cells l (v_cap u))).
    { unfold rest. destruct (v_ptr v); [|exact Hb1]. rewrite lookup_delete_ne by congruence. exact Hb1. }
    rewrite <- Hrest in Hq.
    assert (v_ptr v' <> Some b).
    { intros Hv'. unfold rest in Hq. rewrite Hv', lookup_delete in Hq. discriminate. }
    split.
    + unfold vrep. rewrite Hb. split_and!; auto. unfold rest in Hq.
      destruct (v_ptr v'); [|exact Hq]. rewrite lookup_delete_ne in Hq by congruence. exact Hq.
    + intros b' [= <-]. assumption.
  - split; [|congruence]. unfold vrep. rewrite Hb. auto.
Qed.

Lemma v_copy_assign_ok v u lv lu m :
  triv = true \/ lu = [] ->
  vrep m v lv -> vrep m u lu -> mem_ok m ->
  (forall b, v_ptr u = Some b -> v_ptr v <> Some b) ->
  exists v' m', v_copy_assign triv v u m = Ok (v', m') /\
    vpost m v m' v' lu (v_cap u) (length lu) /\ vrep m' u lu.
Proof.
  intros Ht Hv Hu Hok Hsep. unfold v_copy_assign.
  destruct (v_clear_ok v lv m Hv Hok) as (m1 & Hclr & Hpost1).
  erewrite bind_ok by exact Hclr.
  pose proof Hpost1 as (Hr1 & Hc1 & Hok1 & Hrest1 & _).
  destruct (vrep_frame _ _ _ _ _ _ Hrest1 Hu Hsep) as [Hu1 Hsep1].
  destruct (v_resize_ok (v_cap u) _ _ _ Hr1 Hok1) as (v2 & m2 & Hrsz & Hpost2).
  rewrite take_nil in Hpost2.
  erewrite bind_ok by exact Hrsz.
  pose proof Hpost2 as (Hr2 & Hc2 & Hok2 & Hrest2 & _).
  destruct (vrep_frame _ _ _ _ _ _ Hrest2 Hu1 Hsep1) as [Hu2 Hsep2].
  pose proof (vpost_trans _ _ _ _ _ _ _ _ _ _ _ _ Hpost1 Hpost2) as Hpost12.
  assert (H3 : exists m3, for_range 0 (v_size u) (fun i =>
      destroy triv (v_ptr v2) i ;;; a <- load (v_ptr u) i ;; construct (v_ptr v2) i a) m2 = Ok (tt, m3) /\
    vpost m2 v2 m3 (Vec (length lu) (v_cap v2) (v_ptr v2)) lu (v_cap v2) (length lu)).
  { rewrite (vrep_size _ _ _ Hu). destruct Ht as [Ht| ->].
    - destruct (copy_loop u lu [] v2 m2 Ht Hr2 Hok2) as (m3 & ? & ?); simpl; eauto.
      rewrite Hc2. apply (vrep_cap _ _ _ Hu).
    - exists m2. split; [reflexivity|].
      destruct v2 as [s2 c2 p2]. destruct Hr2 as [Hs2 Hr2]. simpl in Hs2. subst s2. simpl.
      apply (vpost_refl m2 (Vec 0 c2 p2) []); [split; [reflexivity|exact Hr2]|exact Hok2]. }
  destruct H3 as (m3 & Hrun & Hpost3). erewrite bind_ok by exact Hrun.
  rewrite (vrep_size _ _ _ Hu), Hc2.
  rewrite Hc2 in Hpost3.
  do 2 eexists. split; [reflexivity|]. split.
  - apply (vpost_trans _ _ _ _ _ _ _ _ _ _ _ _ Hpost12 Hpost3).
  - pose proof Hpost3 as (_ & _ & _ & Hrest3 & _).
    destruct (vrep_frame _ _ _ _ _ _ Hrest3 Hu2 Hsep2) as [? _]. assumption.
Qed.

(** Copying a non-empty vector of a type with a destructor: the first
    [destroy] hits raw storage. *)
Lemma v_copy_assign_nontriv v u lv lu m :
  triv = false -> lu <> [] ->
  vrep m v lv -> vrep m u lu -> mem_ok m ->
  v_copy_assign triv v u m = UB.
Proof.
  intros Ht Hne Hv Hu Hok. unfold v_copy_assign.
  destruct (v_clear_ok v lv m Hv Hok) as (m1 & Hclr & Hpost1).
  erewrite bind_ok by exact Hclr.
  pose proof Hpost1 as (Hr1 & Hc1 & Hok1 & Hrest1 & _).
  destruct (v_resize_ok (v_cap u) _ _ _ Hr1 Hok1) as (v2 & m2 & Hrsz & Hpost2).
  rewrite take_nil in Hpost2.
  erewrite bind_ok by exact Hrsz.
  pose proof Hpost2 as (Hr2 & Hc2 & Hok2 & Hrest2 & _).
  rewrite (vrep_size _ _ _ Hu). destruct lu as [|a lu]; [congruence|]. simpl.
  apply bind_ub. apply bind_ub. apply bind_ub.
  pose proof (vrep_cap _ _ _ Hu) as Hcap. simpl in Hcap.
  destruct Hr2 as (Hs & Hc & Hp). simpl in Hs. unfold destroy. destruct (v_ptr v2) as [b|].
  - destruct Hp as [_ ->]. rewrite cells_lookup_raw by (simpl; lia). rewrite Ht. reflexivity.
  - exfalso. lia.
Qed.

Lemma v_move_assign_ok v u lv lu m :
  vrep m v lv -> vrep m u lu -> mem_ok m ->
  (forall b, v_ptr u = Some b -> v_ptr v <> Some b) ->
  exists m', v_move_assign triv v u m = Ok ((u, v_empty), m') /\
    vpost m v m' v_empty [] 0 0 /\ vrep m' u lu.
Proof.
  intros Hv Hu Hok Hsep. unfold v_move_assign.
  destruct (v_clear_ok v lv m Hv Hok) as (m1 & Hclr & Hpost1).
  erewrite bind_ok by exact Hclr. exists m1. destruct u as [su cu pu]. split; [reflexivity|].
  split; [exact Hpost1|].
  pose proof Hpost1 as (_ & _ & _ & Hrest & _).
  destruct (vrep_frame _ _ _ _ _ _ Hrest Hu Hsep) as [? _]. assumption.
Qed.

(** *** element access *)
Lemma v_index_ok v l m i k :
  vrep m v l -> py_index (length l) i = Some k ->
  v_index v i m = Ok (Z.of_nat k, m) /\ k < length l.
Proof.
  intros Hr Hk. unfold v_index, py_index in *. rewrite (vrep_size _ _ _ Hr).
  destruct (Z.leb_spec 0 i).
  - destruct (Z.ltb_spec i (Z.of_nat (length l))); [|discriminate]. injection Hk as <-.
    destruct (Z.ltb_spec i 0); [lia|].
    destruct (Z.ltb_spec i (Z.of_nat (length l))); [|lia].
    cbn [dassert]. rewrite bind_ret. split; [|lia]. unfold ret. rewrite Z2Nat.id by lia. reflexivity.
  - destruct (Z.leb_spec (- Z.of_nat (length l)) i); [|discriminate]. injection Hk as <-.
    destruct (Z.ltb_spec i 0); [|lia].
    destruct (Z.ltb_spec (Z.of_nat (length l) + i) (Z.of_nat (length l))); [|lia].
    cbn [dassert]. rewrite bind_ret. split; [|lia]. unfold ret. rewrite Z2Nat.id by lia. reflexivity.
Qed.

Lemma v_index_abort v l m i :
  vrep m v l -> (Z.of_nat (length l) <= i)%Z -> v_index v i m = Abort.
Proof.
  intros Hr Hi. unfold v_index. rewrite (vrep_size _ _ _ Hr).
  destruct (Z.ltb_spec i 0); [lia|]. destruct (Z.ltb_spec i (Z.of_nat (length l))); [lia|]. reflexivity.
Qed.

Lemma v_index_neg v l m i :
  vrep m v l -> (i < - Z.of_nat (length l))%Z ->
  v_index v i m = Ok ((Z.of_nat (length l) + i)%Z, m) /\ (Z.of_nat (length l) + i < 0)%Z.
Proof.
  intros Hr Hi. unfold v_index. rewrite (vrep_size _ _ _ Hr).
  destruct (Z.ltb_spec i 0); [|lia].
  destruct (Z.ltb_spec (Z.of_nat (length l) + i) (Z.of_nat (length l))); [|lia].
  cbn [dassert]. rewrite bind_ret. split; [reflexivity|lia].
Qed.

Lemma v_get_ok v l m i k a :
  vrep m v l -> py_index (length l) i = Some k -> l !! k = Some a ->
  v_get v i m = Ok (a, m).
Proof.
  intros Hr Hk Ha. destruct (v_index_ok _ _ _ _ _ Hr Hk) as [Hi Hlt].
  unfold v_get. erewrite bind_ok by exact Hi. unfold load_z.
  destruct (Z.ltb_spec (Z.of_nat k) 0); [lia|]. rewrite Nat2Z.id. apply (load_ok _ _ _ _ _ Hr Ha).
Qed.

Lemma v_set_ok v l m i k a :
  vrep m v l -> mem_ok m -> py_index (length l) i = Some k ->
  exists m', v_set v i a m = Ok (tt, m') /\ vpost m v m' v (<[k := a]> l) (v_cap v) 0.
Proof.
  intros Hr Hok Hk. destruct (v_index_ok _ _ _ _ _ Hr Hk) as [Hi Hlt].
  unfold v_set. erewrite bind_ok by exact Hi. unfold store_z.
  destruct (Z.ltb_spec (Z.of_nat k) 0); [lia|]. rewrite Nat2Z.id. apply store_ok; assumption.
Qed.

Lemma v_back_ok v l a m : vrep m v (l ++ [a]) -> v_back v m = Ok (a, m).
Proof.
  intros Hr. unfold v_back. rewrite (vrep_size _ _ _ Hr), app_length. simpl.
  replace (0 <? length l + 1) with true by (symmetry; apply Nat.ltb_lt; lia).
  cbn [dassert]. rewrite bind_ret. apply (load_ok _ _ _ _ _ Hr).
  replace (length l + 1 - 1) with (length l) by lia. apply list_lookup_middle. reflexivity.
Qed.

Lemma v_back_abort v m : vrep m v [] -> v_back v m = Abort.
Proof. intros Hr. unfold v_back. rewrite (vrep_size _ _ _ Hr). reflexivity. Qed.

Lemma v_front_ok v l a m : vrep m v (a :: l) -> v_front v m = Ok (a, m).
Proof. intros Hr. apply (load_ok _ _ _ _ _ Hr). reflexivity. Qed.

(** *** iteration *)
Lemma v_iter_from_ok v l m : vrep m v l -> forall todo done fuel,
  l = done ++ todo -> length todo < fuel ->
  v_iter_from fuel (v_ptr v) (length done) (length l) m = Ok (todo, m).
Proof.
  intros Hr. induction todo as [|a todo IH]; intros done fuel -> Hf; destruct fuel as [|fuel]; try (simpl in *; lia).
  - simpl. rewrite app_nil_r, Nat.eqb_refl. reflexivity.
  - simpl. destruct (Nat.eqb_spec (length done) (length (done ++ a :: todo))) as [He|_].
    { rewrite app_length in He. simpl in He. lia. }
    erewrite bind_ok by (apply (load_ok _ _ _ _ _ Hr); apply list_lookup_middle; reflexivity).
    replace (S (length done)) with (length (done ++ [a])) by (rewrite app_length; simpl; lia).
    erewrite bind_ok; [reflexivity|]. apply IH; [rewrite <- app_assoc; reflexivity|simpl in Hf; lia].
Qed.

Lemma v_iter_ok v l m : vrep m v l -> v_iter v m = Ok (l, m).
Proof.
  intros Hr. unfold v_iter. rewrite (vrep_size _ _ _ Hr).
  apply (v_iter_from_ok v l m Hr l [] (S (length l))); [reflexivity|lia].
Qed.

Lemma v_for_each_from_ok cb v : forall todo done fuel m,
  vrep m v (map cb done ++ todo) -> mem_ok m -> length todo < fuel ->
  exists m', v_for_each_from fuel cb (v_ptr v) (length done) (length done + length todo) m = Ok (tt, m') /\
    vpost m v m' v (map cb (done ++ todo)) (v_cap v) 0.
Proof.
  induction todo as [|a todo IH]; intros done fuel m Hr Hok Hf; destruct fuel as [|fuel]; try (simpl in *; lia).
  - simpl. rewrite Nat.add_0_r, Nat.eqb_refl. exists m. split; [reflexivity|].
    rewrite !app_nil_r in *. apply vpost_refl; assumption.
  - simpl. destruct (Nat.eqb_spec (length done) (length done + S (length todo))) as [He|_]; [lia|].
    assert (Hi : (map cb done ++ a :: todo) !! length done = Some a).
    { apply list_lookup_middle. rewrite map_length. reflexivity. }
    erewrite bind_ok by (apply (load_ok _ _ _ _ _ Hr); exact Hi).
    destruct (store_ok m v _ (length done) (cb a) Hr Hok) as (m1 & Hst & Hpost).
    { rewrite app_length, map_length. simpl. lia. }
    erewrite bind_ok by exact Hst.
    rewrite insert_app_r_alt in Hpost by (rewrite map_length; lia).
    rewrite map_length, Nat.sub_diag in Hpost. simpl in Hpost.
    pose proof Hpost as (Hr1 & _ & Hok1 & _).
    destruct (IH (done ++ [a]) fuel m1) as (m2 & Hrun & Hpost2).
    + rewrite map_app, <- app_assoc. exact Hr1.
    + exact Hok1.
    + simpl in Hf. lia.
    + rewrite app_length in Hrun. simpl in Hrun.
      exists m2. split.
      * replace (S (length done)) with (length done + 1) by lia.
        replace (length done + S (length todo)) with (length done + 1 + length todo) by lia. exact Hrun.
      * rewrite <- app_assoc in Hpost2. simpl in Hpost2.
        apply (vpost_trans _ _ _ _ _ _ _ _ _ _ _ _ Hpost Hpost2).
Qed.

Lemma v_for_each_ok cb v l m :
  vrep m v l -> mem_ok m ->
  exists m', v_for_each cb v m = Ok (tt, m') /\ vpost m v m' v (map cb l) (v_cap v) 0.
Proof.
  intros Hr Hok. unfold v_for_each. rewrite (vrep_size _ _ _ Hr).
  apply (v_for_each_from_ok cb v l [] (S (length l)) m Hr Hok). lia.
Qed.

(** Index of the first element satisfying [p], or the length. *)
Fixpoint first_index (p : A -> bool) (l : list A) : nat :=
  match l with [] => 0 | a :: l => if p a then 0 else S (first_index p l) end.

Lemma v_find_from_ok eqb o v l m : vrep m v l -> forall todo done fuel,
  l = done ++ todo -> length todo < fuel ->
  v_find_from fuel eqb o (v_ptr v) (length done) (length l) m
    = Ok (length done + first_index (fun a => eqb a o) todo, m).
Proof.
  intros Hr. induction todo as [|a todo IH]; intros done fuel -> Hf; destruct fuel as [|fuel]; try (simpl in *; lia).
  - simpl. rewrite app_nil_r, Nat.eqb_refl, Nat.add_0_r. reflexivity.
  - simpl. destruct (Nat.eqb_spec (length done) (length (done ++ a :: todo))) as [He|_].
    { rewrite app_length in He. simpl in He. lia. }
    erewrite bind_ok by (apply (load_ok _ _ _ _ _ Hr); apply list_lookup_middle; reflexivity).
    destruct (eqb a o).
    + rewrite Nat.add_0_r. reflexivity.
    + replace (S (length done)) with (length (done ++ [a])) by (rewrite app_length; simpl; lia).
      rewrite IH; [|rewrite <- app_assoc; reflexivity|simpl in Hf; lia].
      rewrite app_length. simpl. do 2 f_equal. lia.
Qed.

Lemma v_find_ok eqb o v l m :
  vrep m v l -> v_find eqb o v m = Ok (first_index (fun a => eqb a o) l, m).
Proof.
  intros Hr. unfold v_find. rewrite (vrep_size _ _ _ Hr).
  apply (v_find_from_ok eqb o v l m Hr l [] (S (length l))); [reflexivity|lia].
Qed.

End Proofs.
