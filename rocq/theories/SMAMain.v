(** The allocator's claims, from the invariant. *)
From Coq Require Import Sorted.
From Verif Require Import Base SMAModel SMASpec SMAProofs SMAInv SMAOps SMAAlloc SMAMerge SMAHist.
Open Scope Z_scope.

Section Main.
Context (MEM MAX : Z) (HP : params MEM MAX).
Notation K := (nlists MAX - 1)%nat.
Notation blk := (Z * Z)%type.
Notation inv := (inv MEM MAX).

Lemma progress st led : reach MEM MAX st led ->
  (forall n, 0 < n -> n + 8 <= INT_MAX -> exists p st', allocate MEM MAX n st = Ok (p, st') /\ keeps led st st') /\
  (forall a n, led !! a = Some n -> exists st', deallocate MEM MAX (Some a) n st = Ok (true, st') /\ keeps (delete a led) st st') /\
  (exists st', memory_merge MEM MAX st = Ok (tt, st') /\ keeps led st st') /\
  (forall a x, owned led a -> a mod 8 = 0 -> exists st', user_write MEM a x st = Ok (tt, st')).
Proof.
  intros HR. destruct (reach_ok MEM MAX HP _ _ HR) as [G Hok]. split; [|split; [|split]].
  - intros n H0 H8. destruct (alloc_step MEM MAX HP _ _ _ n Hok H0 H8) as [[E _]|(a & d & R & G' & st' & _ & _ & _ & _ & E & _ & Hs)]; eexists _, _; (split; [exact E|]); [intros x _ _; reflexivity|].
    intros x Hx Hx8. apply Hs. eapply owned_word; eassumption.
  - intros a n Ha. destruct (dealloc_step MEM MAX HP _ _ _ _ _ Hok Ha) as (G' & st' & E & Hok' & _ & Hs). exists st'. split; [exact E|]. intros x Hx Hx8. apply Hs. eapply owned_word; eassumption.
  - destruct (merge_step MEM MAX HP _ _ _ Hok) as (G' & st' & E & _ & _ & _ & _ & Hs). exists st'. split; [exact E|]. intros x Hx Hx8. apply Hs. eapply owned_word; eassumption.
  - intros a x Ho H8. destruct (write_step MEM MAX HP _ _ _ a x Hok Ho H8) as (st' & E & _). eauto.
Qed.
Lemma disjoint st led : reach MEM MAX st led -> 
  (forall a n, led !! a = Some n -> 0 <= a /\ a mod 8 = 0 /\ 0 < n <= rounded n /\ a + rounded n <= MEM) /\
  (forall a n b m, led !! a = Some n -> led !! b = Some m -> a <> b -> disjoint_ranges a (rounded n) b (rounded m)) /\
  (forall a n b m, led !! a = Some n -> free_block MAX st b m -> disjoint_ranges a (rounded n) b m).
Proof.
  intros HR. destruct (reach_ok MEM MAX HP _ _ HR) as [G (HI & Hf & Hn)]. split; [|split].
  - intros a n Ha. pose proof (block_bounds MEM MAX HP _ _ _ HI a (rounded n) ltac:(apply elem_of_app; right; apply blocks_in, Ha)). destruct (Hn _ _ Ha). pose proof (rounded_bounds n). lia.
  - intros a n b m Ha Hb Hne. apply (disjoint_of MEM MAX HP st G (mjoin G ++ [(a, rounded n)]) (a, rounded n) (blocks (delete a led)) (b, rounded m) (blocks led) HI).
    + rewrite (blocks_delete _ _ _ Ha), <- app_assoc. reflexivity.
    + apply elem_of_app. right. left.
    + apply blocks_in. rewrite lookup_delete_ne by exact Hne. exact Hb.
  - intros a n b m Ha Hb. apply (free_block_iff MEM MAX HP _ _ _ _ _ HI) in Hb. apply (disjoint_of MEM MAX HP st G (blocks led) (a, rounded n) (mjoin G) (b, m) (blocks led) HI); [apply Permutation_app_comm|apply blocks_in, Ha|exact Hb].
Qed.
Lemma alloc_result st led n a st' : reach MEM MAX st led -> 0 < n -> n + 8 <= INT_MAX -> allocate MEM MAX n st = Ok (Some a, st') ->
  0 <= a /\ a mod 8 = 0 /\ n <= rounded n /\ a + rounded n <= MEM /\ led !! a = None /\ forall b m, led !! b = Some m -> disjoint_ranges a (rounded n) b (rounded m).
Proof.
  intros HR H0 H8 E. destruct (reach_ok MEM MAX HP _ _ HR) as [G Hok]. destruct (alloc_step MEM MAX HP _ _ _ n Hok H0 H8) as [[E2 _]|(a' & d & R & G' & st2 & _ & _ & _ & Hfr & E2 & _)]; rewrite E2 in E; [discriminate|]. injection E as <- <-.
  pose proof (reach_alloc MEM MAX _ _ _ _ _ HR H0 H8 E2) as HR2. cbn in HR2. destruct (disjoint _ _ HR2) as (D1 & D2 & _). destruct (D1 a' n (lookup_insert _ _ _)) as (A1 & A2 & A3 & A4). repeat split; try assumption; try lia.
  intros b m Hb. assert (Hne : a' <> b) by congruence. apply D2; [apply lookup_insert|rewrite lookup_insert_ne by congruence; exact Hb|exact Hne].
Qed.
Lemma conserve st led : reach MEM MAX st led -> m_free st = MEM - live_bytes led /\ dump MEM MAX st = Ok (tt, st) /\ 
  exists L, NoDup L /\ (forall a n, (a, n) ∈ L <-> free_block MAX st a n) /\ m_free st = foldr Z.add 0 L.*2.
Proof.
  intros HR. destruct (reach_ok MEM MAX HP _ _ HR) as [G (HI & Hf & Hn)]. pose proof (inv_bytes MEM MAX HP _ _ _ HI) as Hb. rewrite blocks_bytes in Hb. split; [exact Hf|]. split; [eapply dump_ok; [exact HI|lia]|].
  exists (mjoin G). split; [|split; [intros a n; symmetry; eapply free_block_iff; eassumption|]].
  - pose proof (inv_nodup MEM MAX _ _ _ HI) as Hnd. rewrite words_app in Hnd. apply NoDup_app in Hnd as (Hnd & _ & _). pose proof (inv_good _ _ _ _ _ HI) as Hg. apply Forall_app in Hg as [Hg _]. clear -Hnd Hg.
    induction Hg as [|b L Hb Hg IH]; [apply NoDup_nil_2|]. rewrite words_cons in Hnd. apply NoDup_app in Hnd as (_ & Hd & Hnd). apply NoDup_cons. split; [|apply IH, Hnd].
    intros Hin. destruct b as [a n]. apply (Hd a); [apply bw_first, Hb|]. apply elem_words. exists (a, n). split; [exact Hin|apply bw_first, Hb].
  - assert (Hfold : forall L : list blk, foldr Z.add 0 L.*2 = bytes L) by (induction L as [|b L IH]; [reflexivity|]; cbn; unfold bytes in *; lia). rewrite Hfold. lia.
Qed.
Lemma conserve_all st : reach MEM MAX st ∅ -> m_free st = MEM.
Proof. intros HR. destruct (conserve _ _ HR) as (H & _). rewrite H. unfold live_bytes. rewrite map_fold_empty. lia. Qed.
Lemma alloc_null st led n : reach MEM MAX st led -> 0 < n -> n + 8 <= INT_MAX ->
  exists p st', allocate MEM MAX n st = Ok (p, st') /\ (p = None <-> forall a m, free_block MAX st a m -> m < rounded n) /\ (p = None -> st' = st).
Proof.
  intros HR H0 H8. destruct (reach_ok MEM MAX HP _ _ HR) as [G Hok]. pose proof Hok as (HI & _ & _).
  destruct (alloc_step MEM MAX HP _ _ _ n Hok H0 H8) as [[E A]|(a & d & R & G' & st' & E1 & _ & Hd & _ & E & _)]; eexists _, _; (split; [exact E|]).
  - split; [|reflexivity]. split; [|reflexivity]. intros _ a m Hb. apply (free_block_iff MEM MAX HP _ _ _ _ _ HI) in Hb. eapply A, Hb.
  - split; [|discriminate]. split; [discriminate|]. intros H. specialize (H a d). rewrite (free_block_iff MEM MAX HP _ _ _ _ _ HI), E1 in H. specialize (H ltac:(left)). lia.
Qed.
Lemma max_exact st led : reach MEM MAX st led -> exists mx, max_free_mblock_size MEM MAX st = Ok (mx, st) /\
  (forall a m, free_block MAX st a m -> m <= mx) /\ ((mx = 0 /\ forall a m, ~ free_block MAX st a m) \/ exists a, free_block MAX st a mx) /\
  (forall n, 0 < n -> n + 8 <= INT_MAX -> (exists a st', allocate MEM MAX n st = Ok (Some a, st')) <-> rounded n <= mx).
Proof.
  intros HR. destruct (reach_ok MEM MAX HP _ _ HR) as [G Hok]. pose proof Hok as (HI & _ & _). destruct (max_ok MEM MAX HP _ _ _ HI) as (mx & E & A1 & A2). exists mx. split; [exact E|].
  assert (Hm1 : forall a m, free_block MAX st a m -> m <= mx) by (intros a m Hb; apply (free_block_iff MEM MAX HP _ _ _ _ _ HI) in Hb; eauto).
  assert (Hm2 : (mx = 0 /\ forall a m, ~ free_block MAX st a m) \/ exists a, free_block MAX st a mx).
  { destruct A2 as [[-> Hnil]|[a Ha]]; [left|right; exists a; eapply free_block_iff; eassumption]. split; [reflexivity|]. intros a m Hb. apply (free_block_iff MEM MAX HP _ _ _ _ _ HI) in Hb. rewrite Hnil in Hb. inversion Hb. }
  split; [exact Hm1|]. split; [exact Hm2|]. intros n H0 H8. destruct (alloc_null _ _ n HR H0 H8) as (p & st' & Ep & Hp & _). rewrite Ep. pose proof (rounded_bounds n). split.
  - intros (a & st2 & [= -> _]). destruct (Z.le_gt_cases (rounded n) mx) as [|Hgt]; [assumption|]. destruct Hp as [_ Hp]. assert (Hx : Some a = None); [|discriminate]. apply Hp. intros b m Hb. specialize (Hm1 _ _ Hb). lia.
  - intros Hle. destruct p as [a|]; [eauto|]. destruct Hp as [Hp _]. specialize (Hp eq_refl). destruct Hm2 as [[-> _]|[a Ha]]; [lia|]. specialize (Hp _ _ Ha). lia.
Qed.
Lemma merge_keeps st led : reach MEM MAX st led -> exists st', memory_merge MEM MAX st = Ok (tt, st') /\ m_free st' = m_free st /\ keeps led st st' /\
  (forall x, (exists a n, free_block MAX st a n /\ within x a n) <-> (exists a n, free_block MAX st' a n /\ within x a n)) /\
  (forall a n, free_block MAX st a n -> exists a' n', free_block MAX st' a' n' /\ a' <= a /\ a + n <= a' + n') /\
  (forall mx mx', max_free_mblock_size MEM MAX st = Ok (mx, st) -> max_free_mblock_size MEM MAX st' = Ok (mx', st') -> mx <= mx').
Proof.
  intros HR. destruct (reach_ok MEM MAX HP _ _ HR) as [G Hok]. destruct (merge_step MEM MAX HP _ _ _ Hok) as (G' & st' & E & Hok' & Hf & Hc & _ & Hs). exists st'. split; [exact E|]. split; [exact Hf|]. pose proof Hok as (HI & _ & _). pose proof Hok' as (HI' & _ & _).
  assert (Hcov : forall a n, free_block MAX st a n -> exists a' n', free_block MAX st' a' n' /\ a' <= a /\ a + n <= a' + n').
  { intros a n Hb. apply (free_block_iff MEM MAX HP _ _ _ _ _ HI) in Hb. destruct (Hc _ _ Hb) as (a' & n' & Hb' & H). exists a', n'. split; [eapply free_block_iff; eassumption|exact H]. }
  assert (Hw : words (mjoin G') ≡ₚ words (mjoin G)).
  { pose proof (inv_words _ _ _ _ _ HI) as H1. pose proof (inv_words _ _ _ _ _ HI') as H2. rewrite words_app in H1, H2. rewrite <- H2 in H1. symmetry. eapply Permutation_app_inv_r. exact H1. }
  split; [intros x Hx Hx8; apply Hs; eapply owned_word; eassumption|]. split; [|split; [exact Hcov|]].
  - intros x. assert (Hal : forall stx Gx, inv stx Gx (blocks led) -> (exists a n, free_block MAX stx a n /\ within x a n) <-> 8 * (x / 8) ∈ words (mjoin Gx)).
    { intros stx Gx HIx. rewrite <- (byte_iff (mjoin Gx)). - split; intros (a & n & Hb & Hx); exists a, n; (split; [|exact Hx]); eapply (free_block_iff MEM MAX HP _ _ _ _ _ HIx); exact Hb.
      - intros a n Hb. pose proof (block_bounds MEM MAX HP _ _ _ HIx a n ltac:(apply elem_of_app; auto)). tauto. }
    rewrite (Hal _ _ HI), (Hal _ _ HI'), Hw. reflexivity.
  - intros mx mx' M1 M2. destruct (max_exact _ _ HR) as (m1 & E1 & _ & B1 & _). rewrite E1 in M1. injection M1 as <-. pose proof (reach_merge _ _ _ _ _ HR E) as HR'. destruct (max_exact _ _ HR') as (m2 & E2 & A2 & B2 & _). rewrite E2 in M2. injection M2 as <-.
    destruct B1 as [[-> _]|[a Ha]]; [destruct B2 as [[-> _]|[a Ha]]; [lia|]; destruct (free_block_iff MEM MAX HP _ _ _ a m2 HI') as [H _]; specialize (H Ha); pose proof (block_bounds MEM MAX HP _ _ _ HI' a m2 ltac:(apply elem_of_app; auto)); lia|].
    destruct (Hcov _ _ Ha) as (a' & n' & Hb' & H1 & H2). specialize (A2 _ _ Hb'). lia.
Qed.
Lemma merge_same_class st led st' a n b m : reach MEM MAX st led -> memory_merge MEM MAX st = Ok (tt, st') -> free_block MAX st' a n -> free_block MAX st' b m ->
  n = m \/ (8 * (MAX / 8) < n /\ 8 * (MAX / 8) < m) -> a + n <> b.
Proof.
  intros HR E Ha Hb Hnm Hab. destruct (K_val MEM MAX HP) as (HK & HK1 & HKn). destruct (reach_ok MEM MAX HP _ _ HR) as [G Hok]. destruct (merge_step MEM MAX HP _ _ _ Hok) as (G' & st2 & E2 & (HI & _) & _ & _ & Hna & _). rewrite E2 in E. injection E as ->.
  apply (free_block_iff MEM MAX HP _ _ _ _ _ HI) in Ha, Hb. pose proof (block_bounds MEM MAX HP _ _ _ HI a n ltac:(apply elem_of_app; auto)) as Ba. pose proof (block_bounds MEM MAX HP _ _ _ HI b m ltac:(apply elem_of_app; auto)) as Bb.
  destruct (in_join_list MEM MAX _ _ _ _ HI Ha) as (i & xs & Hi & Hx & Hile). destruct (in_join_list MEM MAX _ _ _ _ HI Hb) as (j & ys & Hj & Hy & Hjle).
  assert (Eij : i = j); [|subst j; rewrite Hi in Hj; injection Hj as <-; exact (Hna i xs Hi a n b m Hx Hy Hab)].
  destruct (inv_okb _ _ _ _ _ HI _ _ _ Hi Hx) as [O1 O2]. destruct (inv_okb _ _ _ _ _ HI _ _ _ Hj Hy) as [P1 P2]. cbn [snd] in *.
  destruct (decide (i = K)) as [Ei|Ni], (decide (j = K)) as [Ej|Nj]; [rewrite Ei, Ej; reflexivity| | |].
  - destruct (O2 Ei) as (_ & [O|O] & _); specialize (P1 ltac:(lia)); lia.
  - destruct (P2 Ej) as (_ & [P|P] & _); specialize (O1 ltac:(lia)); lia.
  - specialize (O1 ltac:(lia)). specialize (P1 ltac:(lia)). lia.
Qed.

(** ** The whole pool is not got back *)
Lemma merge_first_empty st i fuel : next st (Head i) = Some None -> merge_first MEM MAX fuel i (Head i) st = Ok (tt, st).
Proof. intros H. destruct fuel; cbn [merge_first]; rewrite (bind_eq _ _ _ _ _ (rd_ok _ _ _ H)); reflexivity. Qed.
Lemma merge_lists_empty st i fl f : forall c j, (forall k, (j <= k < j + c)%nat -> next st (Head k) = Some None) -> merge_lists MEM MAX c i j fl f st = Ok (false, st).
Proof.
  induction c as [|c IH]; intros j H; [reflexivity|]. cbn [merge_lists]. assert (E : merge_scan MEM MAX (fuel0 MEM) i j fl f (Head j) st = Ok (false, st)).
  { unfold fuel0. cbn [merge_scan]. rewrite (bind_eq _ _ _ _ _ (rd_ok _ _ _ (H j ltac:(lia)))). reflexivity. }
  rewrite (bind_eq _ _ _ _ _ E). apply IH. intros k Hk. apply H. lia.
Qed.
Lemma merge_noop st G B a b : inv st G B -> (forall i, (1 <= i < K)%nat -> G !! i = Some []) -> G !! 0%nat = Some [a] -> G !! K = Some [b] -> memory_merge MEM MAX st = Ok (tt, st).
Proof.
  intros HI Hmid H0 HK. destruct (K_val MEM MAX HP) as (HKv & HK1 & HKn). destruct a as [a n], b as [b m].
  assert (Hh : forall i, (1 <= i < K)%nat -> next st (Head i) = Some None) by (intros i Hi; rewrite (head_of _ _ _ _ _ _ _ HI (Hmid i Hi)); reflexivity).
  assert (F0 : merge_first MEM MAX (fuel0 MEM) 0 (Head 0) st = Ok (tt, st)).
  { pose proof (inv_links _ _ _ _ _ HI _ _ H0) as Hl. cbn [fmap list_fmap fst] in Hl. apply links_cons in Hl as [Hl1 Hl2]. apply links_nil in Hl2.
    destruct (fuel0 MEM) as [|fu] eqn:Ef; [unfold fuel0 in Ef; discriminate|]. cbn [merge_first]. rewrite (bind_eq _ _ _ _ _ (rd_ok _ _ _ Hl1)), (bind_eq _ _ _ _ _ (rd_ok _ _ _ Hl2)).
    rewrite (bind_eq _ _ _ _ _ (merge_lists_empty st 0 (Head 0) a (nlists MAX - 1 - (0 + 1)) (0 + 1) ltac:(intros k Hk; apply Hh; lia))). cbn iota.
    destruct fu; cbn [merge_first]; rewrite (bind_eq _ _ _ _ _ (rd_ok _ _ _ Hl2)); reflexivity. }
  assert (Fr : forall c i, (1 <= i)%nat -> (i + c <= K)%nat -> for_range i c (fun i => merge_first MEM MAX (fuel0 MEM) i (Head i)) st = Ok (tt, st)).
    { induction c as [|c IH]; intros i Hi Hc; [reflexivity|]. cbn [for_range]. rewrite (bind_eq _ _ _ _ _ (merge_first_empty st i (fuel0 MEM) (Hh i ltac:(lia)))). apply IH; lia. }
    assert (Fq : quick_merge MEM MAX st = Ok (tt, st)).
    { unfold quick_merge. destruct K as [|k] eqn:Ek; [reflexivity|]. cbn [for_range]. rewrite (bind_eq _ _ _ _ _ F0). apply Fr; lia. }
    unfold memory_merge. rewrite (bind_eq _ _ _ _ _ Fq). unfold pool_merge. rewrite (bind_eq _ _ _ _ _ (rd_ok _ _ _ (head_of _ _ _ _ _ _ _ HI HK))). cbn [fmap list_fmap head fst].
    pose proof (inv_links _ _ _ _ _ HI _ _ HK) as Hl. cbn [fmap list_fmap fst] in Hl. apply links_cons in Hl as [_ Hl]. apply links_nil in Hl.
    destruct (proj2 (inv_okb _ _ _ _ _ HI _ _ _ HK ltac:(left)) eq_refl) as (_ & _ & Hd). cbn [fst snd] in Hd. assert (Hrd : rd_data b st = Ok (m, st)) by (unfold rd_data; rewrite Hd; reflexivity).
    unfold fuel0. replace (2 * S (Z.to_nat (MEM / 8)))%nat with (S (S (2 * Z.to_nat (MEM / 8)))) by lia. cbn [pool_merge_loop]. rewrite (bind_eq _ _ _ _ _ (rd_ok _ _ _ Hl)), (bind_eq _ _ _ _ _ Hrd). reflexivity.
Qed.
End Main.
