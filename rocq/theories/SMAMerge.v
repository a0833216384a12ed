(** memory_merge keeps the allocator's invariant and joins blocks. *)
From Coq Require Import Sorted.
From Verif Require Import Base SMAModel SMASpec SMAProofs SMAInv SMAOps SMAAlloc.
Open Scope Z_scope.

Section Merge.
Context (MEM MAX : Z) (HP : params MEM MAX).
Notation K := (nlists MAX - 1)%nat.
Notation blk := (Z * Z)%type.
Notation inv := (inv MEM MAX).

(** Every block of [L] lies inside a block of [L']. *)
Definition cover (L L' : list blk) : Prop := forall a n, (a, n) ∈ L -> exists a' n', (a', n') ∈ L' /\ a' <= a /\ a + n <= a' + n'.
Lemma cover_refl L : cover L L.
Proof. intros a n H. exists a, n. split; [exact H|lia]. Qed.
Lemma cover_trans L1 L2 L3 : cover L1 L2 -> cover L2 L3 -> cover L1 L3.
Proof. intros H1 H2 a n H. destruct (H1 _ _ H) as (b & m & Hb & ? & ?). destruct (H2 _ _ Hb) as (c & k & Hc & ? & ?). exists c, k. split; [exact Hc|lia]. Qed.
Definition no_adj (xs : list blk) : Prop := forall a n b m, (a, n) ∈ xs -> (b, m) ∈ xs -> a + n <> b.

Lemma sorted_app_lt (p q : list Z) x y : StronglySorted Z.lt (p ++ q) -> x ∈ p -> y ∈ q -> x < y.
Proof.
  induction p as [|z p IH]; intros Hs Hx Hy; [inversion Hx|]. cbn [app] in Hs. apply StronglySorted_inv in Hs as [Hs Hz]. apply elem_of_cons in Hx as [->|Hx]; [|apply IH; assumption].
  rewrite Forall_forall in Hz. apply Hz, elem_of_app. auto.
Qed.

(** Joining two adjacent blocks, whichever comes first. *)
Lemma join_pair st G B f n s m : inv st G ((s, m) :: (f, n) :: B) -> f - m = s \/ f + n = s ->
  inv st G ((if f <? s then f else s, n + m) :: B).
Proof.
  intros HI Hadj. pose proof (block_bounds MEM MAX HP _ _ _ HI f n ltac:(apply elem_of_app; right; right; left)) as Hf. pose proof (block_bounds MEM MAX HP _ _ _ HI s m ltac:(apply elem_of_app; right; left)) as Hs.
  destruct (Z.ltb_spec f s) as [Hlt|Hge].
  - assert (f + n = s) as <- by lia. apply inv_join. eapply inv_bag; [exact HI|apply words_perm, perm_swap|]. pose proof (inv_good _ _ _ _ _ HI) as Hg. apply Forall_app in Hg as [_ Hg].
    apply Forall_cons in Hg as [g1 Hg]. apply Forall_cons in Hg as [g2 Hg]. repeat (constructor; [assumption|]). exact Hg.
  - assert (s + m = f) as <- by lia. rewrite (Z.add_comm n m). apply inv_join. exact HI.
Qed.

(** What one successful join does to the lists. *)
Definition joined (G G' : list (list blk)) (i : nat) (xs : list blk) : Prop :=
  G' !! i = Some xs /\ (forall k, (k < i)%nat -> G' !! k = G !! k) /\ cover (mjoin G) (mjoin G').

Lemma join_insert_ok st G0 G B f n s m i xs : inv st G ((s, m) :: (f, n) :: B) -> f - m = s \/ f + n = s -> (i < K)%nat -> (8 * (Z.of_nat i + 1) < n + m) ->
  mjoin G0 ≡ₚ (f, n) :: (s, m) :: mjoin G -> G !! i = Some xs -> (forall k, (k < i)%nat -> G !! k = G0 !! k) ->
  exists st' G', insert_block MEM MAX (if f <? s then f else s) (n + m) st = Ok (tt, st') /\ inv st' G' B /\ stable B st st' /\ joined G0 G' i xs.
Proof.
  intros HI Hadj Hi Hnm HG0 HGi HGk. pose proof (join_pair _ _ _ _ _ _ _ HI Hadj) as HI1. set (a := if f <? s then f else s) in *.
  pose proof (block_bounds MEM MAX HP _ _ _ HI f n ltac:(apply elem_of_app; right; right; left)) as Hf. pose proof (block_bounds MEM MAX HP _ _ _ HI s m ltac:(apply elem_of_app; right; left)) as Hs.
  destruct (insert_ok MEM MAX HP _ _ _ _ _ HI1) as (pre & suf & st' & Hc & E & HI2 & Hst & _ & _). exists st', (<[cls MAX (n + m) := pre ++ (a, n + m) :: suf]> G). split; [exact E|]. split; [exact HI2|]. split; [exact Hst|].
  assert (Hcl : (i < cls MAX (n + m))%nat).
  { unfold cls. assert (Z.of_nat i < (n + m) / 8 - 1); [|lia]. destruct (div8 n) as [q Hq]; [tauto|]. destruct (div8 m) as [r Hr]; [tauto|]. rewrite Hq, Hr, <- Z.mul_add_distr_l, Z.mul_comm, Z.div_mul by lia. lia. }
  split; [|split].
  - rewrite list_lookup_insert_ne by lia. exact HGi.
  - intros k Hk. rewrite list_lookup_insert_ne by lia. apply HGk, Hk.
  - intros b k Hb. rewrite HG0 in Hb. assert (Hin : forall c, c ∈ (a, n + m) :: mjoin G -> c ∈ mjoin (<[cls MAX (n + m) := pre ++ (a, n + m) :: suf]> G)) by (intros c Hc'; rewrite (join_add _ _ _ _ _ Hc); exact Hc').
    assert (Hx : a <= f /\ f + n <= a + (n + m) /\ a <= s /\ s + m <= a + (n + m)) by (unfold a; destruct (Z.ltb_spec f s); lia).
    apply elem_of_cons in Hb as [[= -> ->]|Hb]; [exists a, (n + m); split; [apply Hin; left|lia]|]. apply elem_of_cons in Hb as [[= -> ->]|Hb]; [exists a, (n + m); split; [apply Hin; left|lia]|].
    exists b, k. split; [apply Hin; right; exact Hb|lia].
Qed.

Lemma merge_scan_ok st G B i j pre f suf : inv st G B -> (i < j < K)%nat -> G !! i = Some (pre ++ (f, 8 * (Z.of_nat i + 1)) :: suf) ->
  forall s2 p2 fuel, G !! j = Some (p2 ++ s2) -> (length s2 <= fuel)%nat ->
  merge_scan MEM MAX fuel i j (lastloc (Head i) pre.*1) f (lastloc (Head j) p2.*1) st = Ok (false, st) \/
  exists st' G', merge_scan MEM MAX fuel i j (lastloc (Head i) pre.*1) f (lastloc (Head j) p2.*1) st = Ok (true, st') /\ inv st' G' B /\ stable B st st' /\ joined G G' i (pre ++ suf).
Proof.
  intros HI Hij Hi. assert (HlG := inv_len _ _ _ _ _ HI). destruct (K_val MEM MAX HP) as (HK & HK1 & HKn).
  induction s2 as [|[s m] s2 IH]; intros p2 fuel Hj Hf; pose proof (inv_links _ _ _ _ _ HI _ _ Hj) as Hl; rewrite fmap_app in Hl; apply links_app in Hl as [_ Hl].
  - left. apply links_nil in Hl. destruct fuel; cbn [merge_scan]; rewrite (bind_eq _ _ _ _ _ (rd_ok _ _ _ Hl)); reflexivity.
  - cbn [fmap list_fmap fst] in Hl. apply links_cons in Hl as [Hl _]. assert (Hin : (s, m) ∈ p2 ++ (s, m) :: s2) by (apply elem_of_app; right; left).
    assert (Hm : m = 8 * (Z.of_nat j + 1)) by (eapply class_size; [exact HI|exact Hj|exact Hin|lia]).
    assert (Hms : forall fu, merge_scan MEM MAX fu i j (lastloc (Head i) pre.*1) f (lastloc (Head j) p2.*1) st =
      (if (f - (Z.of_nat j + 1) * 8 =? s) || (f + (Z.of_nat i + 1) * 8 =? s) then
        nf <- rd (Blk f) ;; wr MEM (lastloc (Head i) pre.*1) nf ;;; ns <- rd (Blk s) ;; wr MEM (lastloc (Head j) p2.*1) ns ;;;
        insert_block MEM MAX (if f <? s then f else s) (index_to_size (Z.of_nat i + Z.of_nat j + 1)) ;;; ret true
      else if f >? s then ret false
      else match fu with O => diverge | S fu => merge_scan MEM MAX fu i j (lastloc (Head i) pre.*1) f (Blk s) end)%cpp st).
    { intros fu. destruct fu; cbn [merge_scan]; rewrite (bind_eq _ _ _ _ _ (rd_ok _ _ _ Hl)); reflexivity. }
    rewrite !Hms. clear Hms. destruct ((f - (Z.of_nat j + 1) * 8 =? s) || (f + (Z.of_nat i + 1) * 8 =? s)) eqn:Eadj.
    + right. assert (Hadj : f - m = s \/ f + 8 * (Z.of_nat i + 1) = s) by (apply orb_true_iff in Eadj; rewrite !Z.eqb_eq in Eadj; lia).
      destruct (remove_ok MEM MAX HP _ _ _ _ _ _ _ _ HI Hi) as (nf & Hnf & Ew1 & HI1 & Hst1). set (st1 := upd (lastloc (Head i) pre.*1) nf st) in *. set (G1 := <[i := pre ++ suf]> G) in *.
      assert (Hj1 : G1 !! j = Some (p2 ++ (s, m) :: s2)) by (unfold G1; rewrite list_lookup_insert_ne by lia; exact Hj).
      destruct (remove_ok MEM MAX HP _ _ _ _ _ _ _ _ HI1 Hj1) as (ns & Hns & Ew2 & HI2 & Hst2). set (st2 := upd (lastloc (Head j) p2.*1) ns st1) in *. set (G2 := <[j := p2 ++ s2]> G1) in *.
      destruct (join_insert_ok st2 G G2 B f (8 * (Z.of_nat i + 1)) s m i (pre ++ suf) HI2 Hadj) as (st3 & G3 & E3 & HI3 & Hst3 & HJ); [lia|lia| | | |].
      * rewrite (join_remove _ _ _ _ _ Hi). constructor. apply join_remove, Hj1.
      * unfold G2. rewrite list_lookup_insert_ne by lia. unfold G1. apply list_lookup_insert. rewrite HlG. lia.
      * intros k Hk. unfold G2, G1. rewrite !list_lookup_insert_ne by lia. reflexivity.
      * exists st3, G3. split; [|split; [exact HI3|split; [|exact HJ]]].
        -- rewrite (bind_eq _ _ _ _ _ (rd_ok _ _ _ Hnf)), (bind_eq _ _ _ _ _ Ew1), (bind_eq _ _ _ _ _ (rd_ok _ _ _ Hns)), (bind_eq _ _ _ _ _ Ew2).
           replace (index_to_size (Z.of_nat i + Z.of_nat j + 1)) with (8 * (Z.of_nat i + 1) + m) by (unfold index_to_size; lia). rewrite (bind_eq _ _ _ _ _ E3). reflexivity.
        -- eapply stable_trans; [exact Hst1|]. eapply stable_trans; [|exact Hst3]. eapply stable_sub; [exact Hst2|]. intros x Hx. rewrite words_cons. apply elem_of_app. auto.
    + destruct (f >? s); [left; reflexivity|]. destruct fuel as [|fuel]; [simpl in Hf; lia|]. specialize (IH (p2 ++ [(s, m)]) fuel). rewrite <- app_assoc, fmap_app in IH. cbn [fmap list_fmap fst] in IH. rewrite lastloc_snoc in IH.
      apply IH; [exact Hj|simpl in Hf; lia].
Qed.
Lemma merge_lists_ok st G B i pre f suf : inv st G B -> G !! i = Some (pre ++ (f, 8 * (Z.of_nat i + 1)) :: suf) ->
  forall c j, (i < j)%nat -> (j + c <= K)%nat ->
  merge_lists MEM MAX c i j (lastloc (Head i) pre.*1) f st = Ok (false, st) \/
  exists st' G', merge_lists MEM MAX c i j (lastloc (Head i) pre.*1) f st = Ok (true, st') /\ inv st' G' B /\ stable B st st' /\ joined G G' i (pre ++ suf).
Proof.
  intros HI Hi. induction c as [|c IH]; intros j Hij Hc; cbn [merge_lists]; [left; reflexivity|].
  destruct (lookup_lt_is_Some_2 G j) as [ys Hys]; [rewrite (inv_len _ _ _ _ _ HI); lia|].
  destruct (merge_scan_ok st G B i j pre f suf HI ltac:(lia) Hi ys [] (fuel0 MEM) Hys) as [E|(st' & G' & E & A)]; [pose proof (fuel_ok MEM MAX _ _ _ HI _ _ Hys); lia| |]; change (lastloc (Head j) ([].*1)) with (Head j) in E; rewrite (bind_eq _ _ _ _ _ E).
  - apply IH; lia.
  - right. exists st', G'. split; [reflexivity|exact A].
Qed.

Lemma upd_upd l p q st : upd l p (upd l q st) = upd l p st.
Proof. destruct l; cbn [upd m_free m_heads m_mem]; [rewrite list_insert_insert; reflexivity|rewrite insert_insert; reflexivity]. Qed.

Lemma merge_first_ok i B : (i < K)%nat -> forall fuel st G pre suf, inv st G B -> G !! i = Some (pre ++ suf) -> (length suf <= fuel)%nat ->
  (forall a n b m, (a, n) ∈ pre -> (b, m) ∈ pre ++ suf -> a + n <> b) ->
  exists st' G' xs, merge_first MEM MAX fuel i (lastloc (Head i) pre.*1) st = Ok (tt, st') /\ inv st' G' B /\ stable B st st' /\ joined G G' i xs /\ no_adj xs.
Proof.
  intros HiK. destruct (K_val MEM MAX HP) as (HK & HK1 & HKn).
  induction fuel as [|fuel IH]; intros st G pre suf HI Hi Hf Hpre; pose proof (inv_links _ _ _ _ _ HI _ _ Hi) as Hl; rewrite fmap_app in Hl; apply links_app in Hl as [_ Hl];
    (destruct suf as [|[f n] suf]; [apply links_nil in Hl; exists st, G, pre; cbn [merge_first]; rewrite (bind_eq _ _ _ _ _ (rd_ok _ _ _ Hl)); rewrite app_nil_r in *;
      split; [reflexivity|]; split; [exact HI|]; split; [apply stable_refl|]; split; [split; [exact Hi|split; [reflexivity|apply cover_refl]]|exact Hpre]|]); [simpl in Hf; lia|].
  cbn [length] in Hf. cbn [fmap list_fmap fst] in Hl. apply links_cons in Hl as [Hl Hl2]. cbn [merge_first]. rewrite (bind_eq _ _ _ _ _ (rd_ok _ _ _ Hl)).
  assert (Hn : n = 8 * (Z.of_nat i + 1)) by (eapply class_size; [exact HI|exact Hi|apply elem_of_app; right; left|exact HiK]).
  assert (Hsp : next st (Blk f) = Some (head suf.*1)) by (destruct suf as [|[s m] suf']; [apply links_nil in Hl2; exact Hl2|apply links_cons in Hl2 as [Hl2 _]; exact Hl2]).
  rewrite (bind_eq _ _ _ _ _ (rd_ok _ _ _ Hsp)).
  assert (Hgen : forall a m, (a, m) ∈ pre ++ (f, n) :: suf -> m = 8 * (Z.of_nat i + 1)) by (intros a m Hin; eapply class_size; [exact HI|exact Hi|exact Hin|exact HiK]).
  destruct (match head suf.*1 with Some s => f + (Z.of_nat i + 1) * 8 =? s | None => false end) eqn:Eadj.
  - destruct suf as [|[s m] suf]; [discriminate|]. cbn [fmap list_fmap head fst] in *. apply Z.eqb_eq in Eadj. apply links_cons in Hl2 as [_ Hl2].
    assert (Hm : m = 8 * (Z.of_nat i + 1)) by (apply (Hgen s); apply elem_of_app; right; right; left).
    destruct (remove_ok MEM MAX HP _ _ _ _ _ _ _ _ HI Hi) as (nf & Hnf & Ew1 & HI1 & Hst1). rewrite Hsp in Hnf. injection Hnf as <-. set (l := lastloc (Head i) pre.*1) in *. set (st1 := upd l (Some s) st) in *. set (G1 := <[i := pre ++ (s, m) :: suf]> G) in *.
    assert (Hi1 : G1 !! i = Some (pre ++ (s, m) :: suf)) by (unfold G1; apply list_lookup_insert; eapply lookup_lt_Some; exact Hi).
    destruct (remove_ok MEM MAX HP _ _ _ _ _ _ _ _ HI1 Hi1) as (ns & Hns & Ew2 & HI2 & Hst2). fold l in Hns, Ew2, HI2, Hst2.
    assert (Hloc : okloc MEM st l) by (eapply (lastloc_ok MEM MAX HP); eassumption).
    assert (Hns0 : next st (Blk s) = Some ns).
    { unfold st1 in Hns. rewrite (next_upd MEM) in Hns by exact Hloc. destruct (decide (Blk s = l)) as [El|]; [exfalso|exact Hns].
      pose proof (addrs_nodup MEM MAX _ _ _ HI1 _ _ Hi1) as Hnd. rewrite fmap_app in Hnd. unfold l in El. destruct (lastloc_in (Head i) pre.*1) as [E|(c & E & Hc)]; rewrite E in El; [discriminate|]. injection El as <-. apply NoDup_app in Hnd as (_ & Hd & _). apply (Hd s Hc). left. }
    rewrite (bind_eq _ _ _ _ _ (rd_ok _ _ _ Hns0)). rewrite (bind_eq _ _ _ _ _ (wr_ok MEM st l ns Hloc)). unfold st1 in HI2, Hst2. rewrite upd_upd in HI2, Hst2. set (st2 := upd l ns st) in *. set (G2 := <[i := pre ++ suf]> G1) in *.
    destruct (join_insert_ok st2 G G2 B f n s m i (pre ++ suf) HI2) as (st3 & G3 & E3 & HI3 & Hst3 & HJ); [right; lia|exact HiK|lia| | | |].
    + rewrite (join_remove _ _ _ _ _ Hi). constructor. apply join_remove, Hi1.
    + unfold G2. apply list_lookup_insert. unfold G1. rewrite insert_length. eapply lookup_lt_Some; exact Hi.
    + intros k Hk. unfold G2, G1. rewrite !list_lookup_insert_ne by lia. reflexivity.
    + replace (if f <? s then f else s) with f in E3 by (rewrite (proj2 (Z.ltb_lt f s)) by lia; reflexivity). replace (index_to_size (Z.of_nat i * 2 + 1)) with (n + m) by (unfold index_to_size; lia). rewrite (bind_eq _ _ _ _ _ E3).
      destruct HJ as (J1 & J2 & J3). destruct (IH st3 G3 pre suf HI3 J1 ltac:(simpl in Hf; lia)) as (st4 & G4 & xs & E4 & HI4 & Hst4 & (J4 & J5 & J6) & Hna).
      * intros a k b k' Ha Hb. apply (Hpre a k b k' Ha). rewrite !elem_of_app, ?elem_of_cons in *. tauto.
      * exists st4, G4, xs. split; [exact E4|]. split; [exact HI4|]. split; [|split; [split; [exact J4|split; [intros k Hk; rewrite J5, J2 by exact Hk; reflexivity|eapply cover_trans; eassumption]]|exact Hna]].
        eapply stable_trans; [|exact Hst4]. eapply stable_trans; [|exact Hst3]. split; [unfold st2; apply upd_free|].
        intros x Hx. destruct Hst1 as [_ F1], Hst2 as [_ F2]. rewrite F2; [apply F1, Hx|]. rewrite words_cons. apply elem_of_app. auto.
  - rewrite Hn in Hi. destruct (merge_lists_ok st G B i pre f suf HI Hi (nlists MAX - 1 - (i + 1)) (i + 1)) as [E|(st1 & G1 & E & HI1 & Hst1 & (J1 & J2 & J3))]; [lia|lia| |]; rewrite (bind_eq _ _ _ _ _ E).
    + rewrite <- Hn in Hi. destruct (IH st G (pre ++ [(f, n)]) suf HI) as (st4 & G4 & xs & E4 & A); [rewrite <- app_assoc; exact Hi|lia| |].
      * intros a k b k' Ha Hb. rewrite <- app_assoc in Hb. apply elem_of_app in Ha as [Ha|Ha]; [apply (Hpre a k b k' Ha Hb)|]. apply elem_of_list_singleton in Ha as [= -> ->].
        intros Eab. assert (Hks : 0 < n) by lia. pose proof (inv_sorted _ _ _ _ _ HI _ _ Hi) as Hs. rewrite fmap_app in Hs. cbn [fmap list_fmap fst] in Hs.
        apply elem_of_app in Hb as [Hb|Hb].
        -- assert (Hbf : b < f). { apply (sorted_app_lt pre.*1 (f :: suf.*1) b f Hs); [apply elem_of_list_fmap; exists (b, k'); auto|left]. } lia.
        -- cbn [app] in Hb. apply elem_of_cons in Hb as [[= -> ->]|Hb]; [lia|]. destruct suf as [|[s m] suf]; [inversion Hb|]. cbn [fmap list_fmap head fst] in *. apply Z.eqb_neq in Eadj.
           apply elem_of_cons in Hb as [[= -> ->]|Hb]; [lia|].
           assert (Hsm : f < s /\ s < b).
           { assert (H2 : StronglySorted Z.lt (f :: s :: suf.*1)) by (clear -Hs; induction pre.*1 as [|x l IHl]; [exact Hs|cbn [app] in Hs; apply StronglySorted_inv in Hs as [Hs _]; apply IHl, Hs]).
             apply StronglySorted_inv in H2 as [H2 H3]. apply Forall_cons in H3 as [H3 _]. apply StronglySorted_inv in H2 as [_ H4]. rewrite Forall_forall in H4. split; [exact H3|]. apply H4. apply elem_of_list_fmap. exists (b, k'). auto. }
           (* s lies strictly inside the block at f *)
           assert (Hin1 : (f, n) ∈ pre ++ (f, n) :: (s, m) :: suf) by (apply elem_of_app; right; left). assert (Hin2 : (s, m) ∈ pre ++ (f, n) :: (s, m) :: suf) by (apply elem_of_app; right; right; left).
           pose proof (block_bounds MEM MAX HP _ _ _ HI f n (in_list G B _ _ _ Hi Hin1)) as Bf. pose proof (block_bounds MEM MAX HP _ _ _ HI s m (in_list G B _ _ _ Hi Hin2)) as Bs.
           apply (sep (mjoin G ++ B) (f, n) (pre ++ (s, m) :: suf ++ mjoin (delete i G) ++ B) (s, m) s (inv_nodup MEM MAX _ _ _ HI)).
           ++ rewrite (join_split _ _ _ Hi). rewrite <- !app_assoc. cbn [app]. rewrite <- Permutation_middle. reflexivity.
           ++ apply elem_of_app. right. left.
           ++ apply elem_bw; [tauto|]. split; [lia|]. rewrite Zminus_mod. replace (s mod 8) with 0 by (symmetry; tauto). replace (f mod 8) with 0 by (symmetry; tauto). reflexivity.
           ++ apply bw_first. eapply (good_of MEM MAX); [exact HI|]. eapply in_list; eassumption.
      * exists st4, G4, xs. rewrite fmap_app in E4. cbn [fmap list_fmap fst] in E4. rewrite lastloc_snoc in E4. auto.
    + destruct (IH st1 G1 pre suf HI1 J1) as (st4 & G4 & xs & E4 & HI4 & Hst4 & (J4 & J5 & J6) & Hna); [lia| |].
      * intros a k b k' Ha Hb. apply (Hpre a k b k' Ha). rewrite !elem_of_app, ?elem_of_cons in *. tauto.
      * exists st4, G4, xs. split; [exact E4|]. split; [exact HI4|]. split; [eapply stable_trans; eassumption|]. split; [split; [exact J4|split; [intros k Hk; rewrite J5, J2 by exact Hk; reflexivity|eapply cover_trans; eassumption]]|exact Hna].
Qed.

Lemma quick_merge_ok B : forall c i st G, (i + c = K)%nat -> inv st G B -> (forall k xs, (k < i)%nat -> G !! k = Some xs -> no_adj xs) ->
  exists st' G', for_range i c (fun i => merge_first MEM MAX (fuel0 MEM) i (Head i)) st = Ok (tt, st') /\ inv st' G' B /\ stable B st st' /\ cover (mjoin G) (mjoin G') /\
    forall k xs, (k < K)%nat -> G' !! k = Some xs -> no_adj xs.
Proof.
  destruct (K_val MEM MAX HP) as (HK & HK1 & HKn).
  induction c as [|c IH]; intros i st G Hc HI Hk; cbn [for_range].
  - exists st, G. split; [reflexivity|]. split; [exact HI|]. split; [apply stable_refl|]. split; [apply cover_refl|]. intros k xs Hlt. apply Hk. lia.
  - destruct (lookup_lt_is_Some_2 G i) as [xs Hxs]; [rewrite (inv_len _ _ _ _ _ HI); lia|].
    destruct (merge_first_ok i B ltac:(lia) (fuel0 MEM) st G [] xs HI Hxs) as (st1 & G1 & ys & E1 & HI1 & Hst1 & (J1 & J2 & J3) & Hna); [pose proof (fuel_ok MEM MAX _ _ _ HI _ _ Hxs); lia|intros a n b m H; inversion H|].
    change (lastloc (Head i) ([].*1)) with (Head i) in E1. rewrite (bind_eq _ _ _ _ _ E1). destruct (IH (S i) st1 G1) as (st2 & G2 & E2 & HI2 & Hst2 & Hc2 & H2); [lia|exact HI1| |].
    + intros k zs Hlt Hz. destruct (decide (k = i)) as [->|Hne]; [rewrite J1 in Hz; injection Hz as <-; exact Hna|]. rewrite J2 in Hz by lia. eapply Hk; [|exact Hz]. lia.
    + exists st2, G2. split; [exact E2|]. split; [exact HI2|]. split; [eapply stable_trans; eassumption|]. split; [eapply cover_trans; eassumption|exact H2].
Qed.

(** mem_pool_memory_merge_d joins a block of the last list with its successor. *)
Lemma pool_join_ok st G B pre a d b m suf : inv st G B -> G !! K = Some (pre ++ (a, d) :: (b, m) :: suf) -> a + d = b ->
  exists nb st1 st2, rd_data b st = Ok (m, st) /\ wr_data MEM a (d + m) st = Ok (tt, st1) /\ next st1 (Blk b) = Some nb /\ wr MEM (Blk a) nb st1 = Ok (tt, st2) /\ inv st2 (<[K := pre ++ (a, d + m) :: suf]> G) B /\ stable B st st2 /\ cover (mjoin G) (mjoin (<[K := pre ++ (a, d + m) :: suf]> G)).
Proof.
  intros HI Hi Hab. destruct (K_val MEM MAX HP) as (HK & HK1 & HKn). set (xs := pre ++ (a, d) :: (b, m) :: suf) in *.
  assert (Ha : (a, d) ∈ xs) by (apply elem_of_app; right; left). assert (Hb : (b, m) ∈ xs) by (apply elem_of_app; right; right; left).
  pose proof (block_bounds MEM MAX HP _ _ _ HI a d (in_list G B _ _ _ Hi Ha)) as Ba. pose proof (block_bounds MEM MAX HP _ _ _ HI b m (in_list G B _ _ _ Hi Hb)) as Bb.
  destruct (proj2 (inv_okb _ _ _ _ _ HI _ _ _ Hi Ha) eq_refl) as (A1 & A2 & A3). destruct (proj2 (inv_okb _ _ _ _ _ HI _ _ _ Hi Hb) eq_refl) as (B1 & B2 & B3). cbn [fst snd] in *.
  pose proof (good_of MEM MAX _ _ _ HI _ (in_list G B _ _ _ Hi Ha)) as Ga. pose proof (good_of MEM MAX _ _ _ HI _ (in_list G B _ _ _ Hi Hb)) as Gb.
  pose proof (inv_links _ _ _ _ _ HI _ _ Hi) as Hl. pose proof (addrs_nodup MEM MAX _ _ _ HI _ _ Hi) as Hnd. pose proof (inv_sorted _ _ _ _ _ HI _ _ Hi) as Hs.
  unfold xs in Hl, Hnd, Hs. rewrite fmap_app in Hl, Hnd, Hs. cbn [fmap list_fmap fst] in Hl, Hnd, Hs.
  assert (Hp8 : in_pool MEM (a + 8) = true) by (eapply (word_in_pool MEM MAX HP _ _ _ HI _ _ (in_list G B _ _ _ Hi Ha)), bw_second; assumption).
  assert (Hp : in_pool MEM a = true) by (eapply (word_in_pool MEM MAX HP _ _ _ HI _ _ (in_list G B _ _ _ Hi Ha)), bw_first; assumption).
  assert (Hapart : forall c, c ∈ xs -> a + 8 <> c.1) by (intros c Hc; eapply (data_word_apart MEM MAX _ _ _ (a, d) c HI); [eapply in_list; eassumption|eapply in_list; eassumption|exact A1]).
  set (st1 := SMA (m_free st) (m_heads st) (<[a + 8 := WInt (d + m)]> (m_mem st))).
  assert (Hext : forall l', l' = Head K \/ (exists c, l' = Blk c /\ c ∈ xs.*1) -> next st1 l' = next st l').
  { intros l' [->|(c & -> & Hc)]; [reflexivity|]. cbn [next st1 m_mem]. apply elem_of_list_fmap in Hc as (c' & -> & Hc). rewrite lookup_insert_ne by (apply Hapart, Hc). reflexivity. }
  assert (Hl1 : links (next st1) (Head K) (pre.*1 ++ a :: b :: suf.*1)).
  { eapply links_ext; [|exact Hl]. intros l' Hl'. apply Hext. destruct Hl' as [->|(c & -> & Hc)]; [auto|]. right. exists c. split; [reflexivity|]. unfold xs. rewrite fmap_app. exact Hc. }
  assert (Hnb : exists nb, next st1 (Blk b) = Some nb).
  { apply links_app in Hl1 as [_ Hl1]. apply links_cons in Hl1 as [_ Hl1]. apply links_cons in Hl1 as [_ Hl1]. destruct suf as [|[s k] suf']; [apply links_nil in Hl1; eauto|apply links_cons in Hl1 as [Hl1 _]; eauto]. }
  destruct Hnb as [nb Hnb]. exists nb, st1, (upd (Blk a) nb st1).
  split; [unfold rd_data; rewrite B3; reflexivity|]. split; [unfold wr_data, wr_word; rewrite Hp8; reflexivity|]. split; [exact Hnb|]. split; [apply wr_ok; exact Hp|].
  assert (Hmem : forall x, m_mem (upd (Blk a) nb st1) !! x = m_mem st !! x \/ x = a \/ x = a + 8).
  { intros x. cbn [upd m_mem st1]. destruct (decide (x = a)) as [->|H1]; [auto|]. destruct (decide (x = a + 8)) as [->|H2]; [auto|]. left. rewrite !lookup_insert_ne by congruence. reflexivity. }
  assert (Hgl : Forall good (pre ++ (a, d + m) :: suf)).
  { apply Forall_forall. intros c Hc. assert (Hc' : c = (a, d + m) \/ c ∈ xs) by (unfold xs; rewrite !elem_of_app, !elem_of_cons in *; tauto). destruct Hc' as [->|Hc']; [|eapply (good_of MEM MAX); [exact HI|eapply in_list; eassumption]].
    split; cbn [snd]; [lia|]. rewrite Z.add_mod by lia. destruct Ga as [_ Ga], Gb as [_ Gb]. cbn [snd] in *. rewrite Ga, Gb. reflexivity. }
  split; [|split].
  - eapply (inv_change MEM MAX st G B _ K xs (pre ++ (a, d + m) :: suf) B HI Hi).
    + rewrite !words_app. apply Permutation_app_tail. unfold xs. rewrite words_app, !words_cons. rewrite bw_app by (try (destruct Ga as [_ Ga]; exact Ga); lia). rewrite Hab, <- app_assoc. reflexivity.
    + apply Forall_app. split; [exact Hgl|]. pose proof (inv_good _ _ _ _ _ HI) as Hg. apply Forall_app in Hg as [_ Hg]. exact Hg.
    + rewrite fmap_app. cbn [fmap list_fmap fst]. replace (pre.*1 ++ a :: suf.*1) with ((pre.*1 ++ [a]) ++ suf.*1) by (rewrite <- app_assoc; reflexivity).
      eapply (links_del (next st1) _ K (pre.*1 ++ [a]) b suf.*1); [rewrite <- app_assoc; exact Hnd|rewrite <- app_assoc; exact Hl1| |].
      * rewrite lastloc_snoc, (next_upd MEM) by exact Hp. rewrite decide_True by reflexivity. symmetry. exact Hnb.
      * rewrite lastloc_snoc. intros l' Hne. rewrite (next_upd MEM) by exact Hp. rewrite decide_False by exact Hne. reflexivity.
    + intros c Hc. assert (Hc' : c = (a, d + m) \/ (c ∈ xs /\ c.1 <> a)).
      { apply elem_of_app in Hc. rewrite elem_of_cons in Hc. destruct Hc as [Hc|[Hc|Hc]]; [right|auto|right]; (split; [unfold xs; rewrite elem_of_app, !elem_of_cons; tauto|]); intros E; apply NoDup_app in Hnd as (_ & Hd & Hnd).
        - apply (Hd a); [apply elem_of_list_fmap; exists c; auto|left].
        - apply NoDup_cons in Hnd as [Hnd _]. apply Hnd. right. apply elem_of_list_fmap. exists c. auto. }
      destruct Hc' as [->|[Hc' Hca]].
      * split; cbn [fst snd]; [lia|]. intros _. split; [lia|]. split; [left; destruct A2; lia|]. cbn [upd m_mem st1]. rewrite lookup_insert_ne by lia. apply lookup_insert.
      * destruct (inv_okb _ _ _ _ _ HI _ _ _ Hi Hc') as [O1 O2]. split; [exact O1|]. intros EK. destruct (O2 EK) as (P1 & P2 & P3). split; [exact P1|]. split; [exact P2|].
        destruct (Hmem (c.1 + 8)) as [E|[E|E]]; [rewrite E; exact P3| |lia]. exfalso. eapply (data_word_apart MEM MAX _ _ _ c (a, d) HI); [eapply in_list; eassumption|eapply in_list; eassumption|exact P1|exact E].
    + rewrite fmap_app. cbn [fmap list_fmap fst]. replace (pre.*1 ++ a :: suf.*1) with ((pre.*1 ++ [a]) ++ suf.*1) by (rewrite <- app_assoc; reflexivity). eapply (sorted_app_del _ _ b). rewrite <- app_assoc. exact Hs.
    + reflexivity.
    + reflexivity.
    + intros x. destruct (Hmem x) as [E | [-> | ->]]; [right; exact E|left|left]; rewrite words_app; apply elem_of_app; left; apply elem_words; exists (a, d); (split; [exact Ha|]); [apply bw_first|apply bw_second]; assumption.
  - split; [reflexivity|]. intros x Hx. destruct (Hmem x) as [E | E]; [exact E|exfalso]. apply elem_words in Hx as (c & Hc & Hxc).
    apply (sep_app (mjoin G) B (a, d) c x (inv_nodup MEM MAX _ _ _ HI)); [eapply join_in; eassumption|exact Hc| |exact Hxc]. destruct E as [-> | ->]; [apply bw_first|apply bw_second]; assumption.
  - intros c k Hc. assert (Hi' : G !! K = Some ((pre ++ [(a, d)]) ++ (b, m) :: suf)) by (rewrite <- app_assoc; exact Hi). assert (E : mjoin G ≡ₚ (a, d) :: (b, m) :: (pre ++ suf) ++ mjoin (delete K G)).
    { rewrite (join_split _ _ _ Hi). unfold xs. rewrite <- !Permutation_middle. reflexivity. }
    assert (E2 : mjoin (<[K := pre ++ (a, d + m) :: suf]> G) ≡ₚ (a, d + m) :: (pre ++ suf) ++ mjoin (delete K G)).
    { rewrite (join_insert _ _ _ _ Hi). rewrite <- Permutation_middle. reflexivity. }
    rewrite E in Hc. assert (Hin : forall z, z ∈ (a, d + m) :: (pre ++ suf) ++ mjoin (delete K G) -> z ∈ mjoin (<[K := pre ++ (a, d + m) :: suf]> G)) by (intros z Hz; rewrite E2; exact Hz).
    apply elem_of_cons in Hc as [[= -> ->]|Hc]; [exists a, (d + m); split; [apply Hin; left|lia]|]. apply elem_of_cons in Hc as [[= -> ->]|Hc]; [exists a, (d + m); split; [apply Hin; left|lia]|].
    exists c, k. split; [apply Hin; right; exact Hc|lia].
Qed.
Lemma pool_merge_ok B : forall fuel st G pre suf, inv st G B -> G !! K = Some (pre ++ suf) -> (length suf < fuel)%nat ->
  (forall a n b m, (a, n) ∈ pre -> (b, m) ∈ pre ++ suf -> a + n <> b) ->
  exists st' xs, pool_merge_loop MEM fuel (head suf.*1) st = Ok (tt, st') /\ inv st' (<[K := xs]> G) B /\ stable B st st' /\ cover (mjoin G) (mjoin (<[K := xs]> G)) /\ no_adj xs.
Proof.
  destruct (K_val MEM MAX HP) as (HK & HK1 & HKn).
  induction fuel as [|fuel IH]; intros st G pre suf HI Hi Hf Hpre; [lia|]. destruct suf as [|[a d] suf]; cbn [fmap list_fmap head fst pool_merge_loop].
  { exists st, pre. rewrite app_nil_r in *. rewrite list_insert_id by exact Hi. split; [reflexivity|]. split; [exact HI|]. split; [apply stable_refl|]. split; [apply cover_refl|exact Hpre]. }
  pose proof (inv_links _ _ _ _ _ HI _ _ Hi) as Hl. rewrite fmap_app in Hl. apply links_app in Hl as [_ Hl]. cbn [fmap list_fmap fst] in Hl. apply links_cons in Hl as [_ Hl]. cbn [length] in Hf.
  assert (Hsp : next st (Blk a) = Some (head suf.*1)) by (destruct suf as [|[s m] suf']; [apply links_nil in Hl; exact Hl|apply links_cons in Hl as [Hl _]; exact Hl]).
  assert (Ha : (a, d) ∈ pre ++ (a, d) :: suf) by (apply elem_of_app; right; left).
  destruct (proj2 (inv_okb _ _ _ _ _ HI _ _ _ Hi Ha) eq_refl) as (A1 & A2 & A3). cbn [fst snd] in *. assert (Hrd : rd_data a st = Ok (d, st)) by (unfold rd_data; rewrite A3; reflexivity).
  rewrite (bind_eq _ _ _ _ _ (rd_ok _ _ _ Hsp)), (bind_eq _ _ _ _ _ Hrd).
  assert (Hadv : (match head suf.*1 with Some b => a + d =? b | None => false end) = false -> exists st' xs, pool_merge_loop MEM fuel (head suf.*1) st = Ok (tt, st') /\ inv st' (<[K := xs]> G) B /\ stable B st st' /\ cover (mjoin G) (mjoin (<[K := xs]> G)) /\ no_adj xs).
  { intros Eadj. apply (IH st G (pre ++ [(a, d)]) suf HI); [rewrite <- app_assoc; exact Hi|lia|]. intros x n b k Hx Hb. rewrite <- app_assoc in Hb. cbn [app] in Hb. apply elem_of_app in Hx as [Hx|Hx]; [apply (Hpre x n b k Hx Hb)|].
    apply elem_of_list_singleton in Hx as [= -> ->]. intros Eab. pose proof (inv_sorted _ _ _ _ _ HI _ _ Hi) as Hs. rewrite fmap_app in Hs. cbn [fmap list_fmap fst] in Hs.
    apply elem_of_app in Hb as [Hb|Hb].
    - assert (Hbf : b < a) by (apply (sorted_app_lt pre.*1 (a :: suf.*1) b a Hs); [apply elem_of_list_fmap; exists (b, k); auto|left]). lia.
    - apply elem_of_cons in Hb as [[= -> ->]|Hb]; [lia|]. destruct suf as [|[s m] suf]; [inversion Hb|]. cbn [fmap list_fmap head fst] in *. apply Z.eqb_neq in Eadj. apply elem_of_cons in Hb as [[= -> ->]|Hb]; [lia|].
      assert (Hsm : a < s /\ s < b).
      { assert (H2 : StronglySorted Z.lt (a :: s :: suf.*1)) by (clear -Hs; induction pre.*1 as [|x l IHl]; [exact Hs|cbn [app] in Hs; apply StronglySorted_inv in Hs as [Hs _]; apply IHl, Hs]).
        apply StronglySorted_inv in H2 as [H2 H3]. apply Forall_cons in H3 as [H3 _]. apply StronglySorted_inv in H2 as [_ H4]. rewrite Forall_forall in H4. split; [exact H3|]. apply H4. apply elem_of_list_fmap. exists (b, k). auto. }
      assert (Hin2 : (s, m) ∈ pre ++ (a, d) :: (s, m) :: suf) by (apply elem_of_app; right; right; left).
      pose proof (block_bounds MEM MAX HP _ _ _ HI a d (in_list G B _ _ _ Hi Ha)) as Bf. pose proof (block_bounds MEM MAX HP _ _ _ HI s m (in_list G B _ _ _ Hi Hin2)) as Bs.
      apply (sep (mjoin G ++ B) (a, d) (pre ++ (s, m) :: suf ++ mjoin (delete K G) ++ B) (s, m) s (inv_nodup MEM MAX _ _ _ HI)).
      + rewrite (join_split _ _ _ Hi). rewrite <- !app_assoc. cbn [app]. rewrite <- Permutation_middle. reflexivity.
      + apply elem_of_app. right. left.
      + apply elem_bw; [tauto|]. split; [lia|]. rewrite Zminus_mod. replace (s mod 8) with 0 by (symmetry; tauto). replace (a mod 8) with 0 by (symmetry; tauto). reflexivity.
      + apply bw_first. eapply (good_of MEM MAX); [exact HI|]. eapply in_list; eassumption. }
  destruct suf as [|[b m] suf]; cbn [fmap list_fmap head fst] in *; [apply Hadv; reflexivity|].
  destruct (Z.eqb_spec (a + d) b) as [Eab|Nab]; [|apply Hadv; reflexivity]. clear Hadv.
  destruct (pool_join_ok st G B pre a d b m suf HI Hi Eab) as (nb & st1 & st2 & R1 & R2 & R3 & R4 & HI2 & Hst & Hc). rewrite (bind_eq _ _ _ _ _ R1), (bind_eq _ _ _ _ _ R2), (bind_eq _ _ _ _ _ (rd_ok _ _ _ R3)), (bind_eq _ _ _ _ _ R4).
  destruct (IH st2 (<[K := pre ++ (a, d + m) :: suf]> G) pre ((a, d + m) :: suf) HI2) as (st3 & xs & E3 & HI3 & Hst3 & Hc3 & Hna).
  - apply list_lookup_insert. eapply lookup_lt_Some; exact Hi.
  - cbn [length] in *. lia.
  - intros x n y k Hx Hy. apply elem_of_app in Hy. rewrite elem_of_cons in Hy. destruct Hy as [Hy|[[= -> ->]|Hy]].
    + apply (Hpre x n y k Hx). apply elem_of_app. auto.
    + apply (Hpre x n a d Hx Ha).
    + apply (Hpre x n y k Hx). rewrite elem_of_app, !elem_of_cons. auto.
  - cbn [fmap list_fmap head fst] in E3. rewrite list_insert_insert in HI3, Hc3. exists st3, xs. split; [exact E3|]. split; [exact HI3|]. split; [eapply stable_trans; eassumption|]. split; [eapply cover_trans; eassumption|exact Hna].
Qed.
Theorem memory_merge_ok st G B : inv st G B -> exists st' G', memory_merge MEM MAX st = Ok (tt, st') /\ inv st' G' B /\ stable B st st' /\ cover (mjoin G) (mjoin G') /\
  forall i xs, G' !! i = Some xs -> no_adj xs.
Proof.
  intros HI. destruct (K_val MEM MAX HP) as (HK & HK1 & HKn). destruct (quick_merge_ok B K 0 st G) as (st1 & G1 & E1 & HI1 & Hst1 & Hc1 & Hna1); [lia|exact HI|intros; lia|].
  unfold memory_merge. assert (E1' : quick_merge MEM MAX st = Ok (tt, st1)) by exact E1. rewrite (bind_eq _ _ _ _ _ E1'). unfold pool_merge.
  destruct (lookup_lt_is_Some_2 G1 K) as [xs Hxs]; [rewrite (inv_len _ _ _ _ _ HI1); lia|]. rewrite (bind_eq _ _ _ _ _ (rd_ok _ _ _ (head_of _ _ _ _ _ _ _ HI1 Hxs))).
  destruct (pool_merge_ok B (2 * fuel0 MEM) st1 G1 [] xs HI1 Hxs) as (st2 & ys & E2 & HI2 & Hst2 & Hc2 & Hna2); [pose proof (fuel_ok MEM MAX _ _ _ HI1 _ _ Hxs); lia|intros a n b m H; inversion H|].
  exists st2, (<[K := ys]> G1). split; [exact E2|]. split; [exact HI2|]. split; [eapply stable_trans; eassumption|]. split; [eapply cover_trans; eassumption|].
  intros i zs Hi. destruct (decide (i = K)) as [->|Hne]; [rewrite list_lookup_insert in Hi by (eapply lookup_lt_Some; exact Hxs); injection Hi as <-; exact Hna2|].
  rewrite list_lookup_insert_ne in Hi by congruence. eapply Hna1; [|exact Hi]. apply lookup_lt_Some in Hi. rewrite (inv_len _ _ _ _ _ HI1) in Hi. lia.
Qed.
End Merge.
