(** Where the allocator falls short, and the port built on it. *)
From Coq Require Import Sorted.
From Verif Require Import Base SMAModel SMASpec SMAProofs SMAInv SMAOps SMAAlloc SMAMerge SMAHist SMAMain.
Open Scope Z_scope.

Section Refute.
Context (MEM MAX : Z) (HP : params MEM MAX).
Notation K := (nlists MAX - 1)%nat.
Notation blk := (Z * Z)%type.
Notation inv := (inv MEM MAX).

Lemma single_list (xs : list blk) b : NoDup xs.*1 -> b ∈ xs -> (forall c, c ∈ xs -> c = b) -> xs = [b].
Proof.
  intros Hnd Hb Hall. destruct xs as [|c xs]; [inversion Hb|]. rewrite (Hall c) in * by left. destruct xs as [|d xs]; [reflexivity|]. rewrite (Hall d) in Hnd by (right; left). cbn in Hnd. apply NoDup_cons in Hnd as [H _]. destruct H. left.
Qed.
Lemma not_recombined : 8 * (MAX / 8) + 16 <= MEM -> exists st0 st, reach MEM MAX st0 ∅ /\ memory_merge MEM MAX st0 = Ok (tt, st) /\ reach MEM MAX st ∅ /\
  free_block MAX st 0 8 /\ free_block MAX st 8 (MEM - 8) /\ m_free st = MEM /\ allocate MEM MAX MEM st = Ok (None, st).
Proof.
  intros Hbig. destruct (K_val MEM MAX HP) as (HK & HK1 & HKn). pose proof HP as (HX & HM & HM8 & HMI).
  assert (R8 : rounded 8 = 8) by reflexivity. assert (H8I : 8 + 8 <= INT_MAX) by (unfold INT_MAX; lia).
  pose proof (init_ok MEM MAX HP) as Hok0. destruct (alloc_step MEM MAX HP _ _ _ 8 Hok0 ltac:(lia) H8I) as [[_ A]|(a & d & R & G1 & st1 & E1 & E2 & Hd & _ & E & Hok1 & _)].
  { specialize (A 0 MEM). rewrite join_replicate in A. specialize (A ltac:(left)). rewrite R8 in A. lia. }
  rewrite join_replicate in E1. apply Permutation_singleton_l in E1. injection E1 as <- <- <-. rewrite R8 in *. rewrite (proj2 (Z.eqb_neq MEM 8)) in E2 by lia. cbn [app] in E2. rewrite Z.add_0_l in E2.
  pose proof (reach_alloc MEM MAX _ _ 8 _ _ (reach_init MEM MAX) ltac:(lia) H8I E) as HR1. cbn in HR1.
  destruct (dealloc_step MEM MAX HP _ _ _ 0 8 Hok1 (lookup_insert _ _ _)) as (G2 & st2 & Ed & Hok2 & E3 & _).
  pose proof (reach_dealloc MEM MAX _ _ _ _ _ _ HR1 (lookup_insert _ _ _) Ed) as HR2. rewrite delete_insert in HR2, Hok2 by apply lookup_empty. rewrite R8, E2 in E3.
  destruct Hok2 as (HI & Hf & _). assert (Hin : forall i xs b, G2 !! i = Some xs -> b ∈ xs -> b = (0, 8) \/ b = (8, MEM - 8)).
  { intros i xs b Hi Hb. assert (H : b ∈ mjoin G2) by (eapply join_in; eassumption). rewrite E3, !elem_of_cons in H. destruct H as [H|[H|H]]; [auto|auto|inversion H]. }
  assert (Hlow : forall i xs b, G2 !! i = Some xs -> b ∈ xs -> (i < K)%nat -> b = (0, 8) /\ i = 0%nat).
  { intros i xs b Hi Hb Hlt. pose proof (proj1 (inv_okb _ _ _ _ _ HI _ _ _ Hi Hb) Hlt) as Hs. destruct (Hin _ _ _ Hi Hb) as [-> | ->]; cbn [snd] in Hs; [split; [reflexivity|lia]|lia]. }
  assert (Hhigh : forall xs b, G2 !! K = Some xs -> b ∈ xs -> b = (8, MEM - 8)).
  { intros xs b Hi Hb. destruct (proj2 (inv_okb _ _ _ _ _ HI _ _ _ Hi Hb) eq_refl) as (Hs & _). destruct (Hin _ _ _ Hi Hb) as [-> | ->]; cbn [snd] in Hs; [lia|reflexivity]. }
  assert (Hl : forall i, (i <= K)%nat -> exists xs, G2 !! i = Some xs) by (intros i Hi; apply lookup_lt_is_Some_2; rewrite (inv_len _ _ _ _ _ HI); lia).
  assert (Hmerge : memory_merge MEM MAX st2 = Ok (tt, st2)).
  { eapply (merge_noop MEM MAX HP st2 G2 _ (0, 8) (8, MEM - 8) HI).
    - intros i Hi. destruct (Hl i ltac:(lia)) as [xs Hxs]. rewrite Hxs. f_equal. destruct xs as [|b xs]; [reflexivity|]. destruct (Hlow i _ b Hxs ltac:(left) ltac:(lia)). lia.
    - destruct (Hl 0%nat ltac:(lia)) as [xs Hxs]. rewrite Hxs. f_equal. apply single_list; [eapply addrs_nodup; eassumption| |intros c Hc; eapply Hlow; [exact Hxs|exact Hc|lia]].
      assert (H : (0, 8) ∈ mjoin G2) by (rewrite E3; left). destruct (in_join_list MEM MAX _ _ _ _ HI H) as (i & ys & Hi & Hy & Hile). destruct (decide (i = K)) as [->|Hne]; [specialize (Hhigh _ _ Hi Hy); injection Hhigh; lia|].
      destruct (Hlow _ _ _ Hi Hy ltac:(lia)) as [_ ->]. congruence.
    - destruct (Hl K ltac:(lia)) as [xs Hxs]. rewrite Hxs. f_equal. apply single_list; [eapply addrs_nodup; eassumption| |intros c Hc; eapply Hhigh; eassumption].
      assert (H : (8, MEM - 8) ∈ mjoin G2) by (rewrite E3; right; left). destruct (in_join_list MEM MAX _ _ _ _ HI H) as (i & ys & Hi & Hy & Hile). destruct (decide (i = K)) as [->|Hne]; [congruence|].
      destruct (Hlow _ _ _ Hi Hy ltac:(lia)) as [Hx _]. injection Hx. lia. }
  exists st2, st2. split; [exact HR2|]. split; [exact Hmerge|]. split; [exact HR2|]. split; [eapply (free_block_iff MEM MAX HP); [exact HI|]; rewrite E3; left|]. split; [eapply (free_block_iff MEM MAX HP); [exact HI|]; rewrite E3; right; left|].
  split; [apply (conserve_all MEM MAX HP), HR2|]. destruct (alloc_null MEM MAX HP _ _ MEM HR2 ltac:(lia) HMI) as (p & st' & Ep & [_ Hp] & Hs). rewrite Ep. assert (p = None) as ->.
  { apply Hp. intros b m Hb. apply (free_block_iff MEM MAX HP _ _ _ _ _ HI) in Hb. rewrite E3, !elem_of_cons in Hb. rewrite rounded_id by exact HM8. destruct Hb as [Hb|[Hb|Hb]]; [injection Hb; lia|injection Hb; lia|inversion Hb]. }
  rewrite Hs by reflexivity. reflexivity.
Qed.

(** ** Requests for nothing *)
Lemma nonpos st led n : reach MEM MAX st led -> - 2147483648 <= n <= 0 ->
  let j := Z.of_nat K + rounded n / 8 in
  (j < 0 \/ next st (Head (Z.to_nat j)) = Some None -> allocate MEM MAX n st = UB) /\
  (forall a, 0 <= j -> next st (Head (Z.to_nat j)) = Some (Some a) -> exists st', allocate MEM MAX n st = Ok (Some a, st') /\
     (forall b m, free_block MAX st' b m <-> free_block MAX st b m /\ b <> a) /\ m_free st' = m_free st - rounded n /\ dump MEM MAX st' = Abort).
Proof.
  intros HR Hn j. destruct (K_val MEM MAX HP) as (HK & HK1 & HKn). pose proof HP as ((HX & HX2) & HM & HM8 & HMI). pose proof (rounded_bounds n) as Hr. pose proof (rounded_mod n) as Hr8. destruct (div8 _ Hr8) as [q Hq].
  assert (Hq8 : rounded n / 8 = q) by (rewrite Hq, Z.mul_comm; apply Z.div_mul; lia). unfold j. rewrite Hq8. clear j.
  assert (HI4 : INT_MAX = 2147483647) by reflexivity.
  assert (HKb : Z.of_nat (nlists MAX) <= 2147483647) by (assert (MAX / 8 <= MAX) by (apply Z.div_le_upper_bound; lia); lia).
  assert (Hq0 : q <= 0) by lia.
  destruct (reach_ok MEM MAX HP _ _ HR) as [G (HI & Hf & _)].
  assert (Hu : as_unsigned (q - 1) = 18446744073709551616 + (q - 1)) by (unfold as_unsigned; rewrite (proj2 (Z.ltb_lt (q - 1) 0)) by lia; reflexivity).
  assert (Hquick : quick_alloc MEM MAX n st = (h <- head_index MAX (q - 1) ;; p <- rd (Head h) ;; match p with None => ub | Some a => nx <- rd (Blk a) ;; wr MEM (Head h) nx ;;; ret (Some (a, index_to_size (q - 1))) end)%cpp st).
  { unfold quick_alloc. rewrite round_up_ok by lia. cbn [lift]. rewrite bind_ret. unfold size_to_index. rewrite round_up_ok by lia. rewrite rounded_id by exact Hr8. cbn [mbind option_bind lift]. rewrite bind_ret.
    rewrite Hq at 1. rewrite (Z.mul_comm 8 q), Z.quot_mul by lia.
    assert (Es : quick_search MAX (nlists MAX) (q - 1) st = Ok (q - 1, st)) by (rewrite HKn at 1; cbn [quick_search]; rewrite Hu; rewrite (proj2 (Z.ltb_ge (18446744073709551616 + (q - 1)) _)) by lia; reflexivity).
    rewrite (bind_eq _ _ _ _ _ Es), Hu. rewrite (proj2 (Z.eqb_neq (18446744073709551616 + (q - 1)) _)) by lia. reflexivity. }
  assert (Halloc : forall r st', quick_alloc MEM MAX n st = Ok (Some r, st') -> r.2 = rounded n -> allocate MEM MAX n st = Ok (Some r.1, SMA (m_free st' + - rounded n) (m_heads st') (m_mem st'))).
  { intros [a d] st' E Hd. cbn [fst snd] in *. unfold allocate. destruct (Z.gtb_spec n MAX) as [Hgt|_]; [lia|].
    assert (E2 : (t <- quick_alloc MEM MAX n ;; match t with None => pool_alloc MEM MAX n | Some _ => ret t end)%cpp st = Ok (Some (a, d), st')) by (rewrite (bind_eq _ _ _ _ _ E); reflexivity).
    rewrite (bind_eq _ _ _ _ _ E2). rewrite round_up_ok by lia. cbn [lift]. rewrite bind_ret. unfold insert_block. replace (d - rounded n) with 0 by lia. rewrite (proj2 (Z.leb_le 0 0)) by lia. rewrite bind_ret. reflexivity. }
  assert (Hub : quick_alloc MEM MAX n st = UB -> allocate MEM MAX n st = UB).
  { intros E. unfold allocate. destruct (Z.gtb_spec n MAX) as [Hgt|_]; [lia|]. unfold bind at 1. unfold bind at 1. rewrite E. reflexivity. }
  assert (Hhi : head_index MAX (q - 1) st = if 0 <=? Z.of_nat K + q then Ok (Z.to_nat (Z.of_nat K + q), st) else UB).
  { unfold head_index. rewrite (proj2 (Z.ltb_lt (q - 1) 0)) by lia. replace (Z.of_nat (nlists MAX) + (q - 1)) with (Z.of_nat K + q) by lia. rewrite (proj2 (Z.ltb_lt (Z.of_nat K + q) (Z.of_nat (nlists MAX)))) by lia. rewrite andb_true_r. destruct (0 <=? Z.of_nat K + q); reflexivity. }
  split.
  - intros Hj. apply Hub. rewrite Hquick. destruct (Z.leb_spec 0 (Z.of_nat K + q)) as [Hge|Hlt].
    + rewrite (bind_eq _ _ _ _ _ Hhi). destruct Hj as [Hj|Hj]; [lia|]. rewrite (bind_eq _ _ _ _ _ (rd_ok _ _ _ Hj)). reflexivity.
    + unfold bind at 1. rewrite Hhi. reflexivity.
  - intros a Hge Hnx. rewrite (proj2 (Z.leb_le 0 _) Hge) in Hhi. set (i := Z.to_nat (Z.of_nat K + q)) in *.
    destruct (lookup_lt_is_Some_2 G i) as [xs Hxs]; [rewrite (inv_len _ _ _ _ _ HI); unfold i; lia|]. pose proof (head_of _ _ _ _ _ _ _ HI Hxs) as Hh. rewrite Hnx in Hh. destruct xs as [|[a' d] xs]; [discriminate|]. injection Hh as <-.
    destruct (remove_ok MEM MAX HP st G _ i [] a d xs HI Hxs) as (nx & Hn2 & Hw & HI' & [Hs1 _]). cbn [fmap list_fmap app] in *. change (lastloc (Head i) []) with (Head i) in *. set (st1 := upd (Head i) nx st) in *.
    assert (Eq : quick_alloc MEM MAX n st = Ok (Some (a, rounded n), st1)).
    { rewrite Hquick. rewrite (bind_eq _ _ _ _ _ Hhi), (bind_eq _ _ _ _ _ (rd_ok _ _ _ Hnx)), (bind_eq _ _ _ _ _ (rd_ok _ _ _ Hn2)), (bind_eq _ _ _ _ _ Hw). unfold ret, index_to_size. replace ((q - 1 + 1) * 8) with (rounded n) by lia. reflexivity. }
    eexists. split; [apply (Halloc _ _ Eq eq_refl)|]. assert (HI2 : inv (SMA (m_free st1 + - rounded n) (m_heads st1) (m_mem st1)) (<[i := xs]> G) ((a, d) :: blocks led)) by (eapply inv_frame; [exact HI'|reflexivity|reflexivity]).
    assert (Hperm : mjoin G ≡ₚ (a, d) :: mjoin (<[i := xs]> G)) by (apply (join_remove G i [] (a, d) xs), Hxs).
    split; [|split].
    + intros b m. rewrite (free_block_iff MEM MAX HP _ _ _ _ _ HI), (free_block_iff MEM MAX HP _ _ _ _ _ HI2), Hperm, elem_of_cons. split.
      * intros Hb. split; [auto|]. intros ->. apply (sep_app (mjoin (<[i := xs]> G)) ((a, d) :: blocks led) (a, m) (a, d) a (inv_nodup MEM MAX _ _ _ HI2) Hb ltac:(left)); apply bw_first; eapply (good_of MEM MAX _ _ _ HI2); apply elem_of_app; [auto|right; left].
      * intros [[Hb|Hb] Hne]; [injection Hb; congruence|exact Hb].
    + cbn [m_free]. lia.
    + eapply (dump_bad MEM MAX); [exact HI2|]. cbn [m_free]. pose proof (inv_bytes MEM MAX HP _ _ _ HI2) as Hb. pose proof (good_of MEM MAX _ _ _ HI2 (a, d) ltac:(apply elem_of_app; right; left)) as [Hd _]. cbn in Hb, Hd. fold (bytes (blocks led)) in Hb. rewrite blocks_bytes in Hb. unfold bytes in *. lia.
Qed.
(** On the fresh allocator, allocate(0) takes everything. *)
Lemma zero_takes_all : exists st', allocate MEM MAX 0 (sma_init MEM MAX) = Ok (Some 0, st') /\ (forall b m, ~ free_block MAX st' b m) /\ m_free st' = MEM /\ dump MEM MAX st' = Abort.
Proof.
  destruct (K_val MEM MAX HP) as (HK & HK1 & HKn). destruct (nonpos _ _ 0 (reach_init MEM MAX) ltac:(lia)) as [_ H]. change (rounded 0) with 0 in H. change (0 / 8) with 0 in H. rewrite Z.add_0_r, Nat2Z.id in H.
  destruct (H 0 ltac:(lia)) as (st' & E & A & B & C).
  - cbn [next sma_init m_heads]. rewrite lookup_app_r by (rewrite replicate_length; lia). rewrite replicate_length, Nat.sub_diag. reflexivity.
  - exists st'. split; [exact E|]. split; [|split; [rewrite B; cbn [sma_init m_free]; lia|exact C]]. intros b m Hb. apply A in Hb as [Hb Hne]. destruct (init_ok MEM MAX HP) as (HI & _). apply (free_block_iff MEM MAX HP _ _ _ _ _ HI) in Hb.
    rewrite join_replicate in Hb. apply elem_of_list_singleton in Hb. congruence.
Qed.

(** ** Alignment *)
Lemma misaligned st led n a st' obj : reach MEM MAX st led -> 0 < n -> n + 8 <= INT_MAX -> allocate MEM MAX n st = Ok (Some a, st') -> obj mod 8 = 0 -> pool_address obj a mod 8 = 4.
Proof.
  intros HR H0 H8 E Ho. destruct (alloc_result MEM MAX HP _ _ _ _ _ HR H0 H8 E) as (_ & Ha & _). unfold pool_address. destruct (div8 _ Ho) as [p ->], (div8 _ Ha) as [q ->]. replace (8 * p + 4 + 8 * q) with (4 + (p + q) * 8) by lia. rewrite Z_mod_plus_full. reflexivity.
Qed.
Lemma aligned4 st led n a st' obj : reach MEM MAX st led -> 0 < n -> n + 8 <= INT_MAX -> allocate MEM MAX n st = Ok (Some a, st') -> obj mod 4 = 0 -> pool_address obj a mod 4 = 0.
Proof.
  intros HR H0 H8 E Ho. destruct (alloc_result MEM MAX HP _ _ _ _ _ HR H0 H8 E) as (_ & Ha & _). unfold pool_address. destruct (div8 _ Ha) as [q ->]. rewrite Z.add_mod, (Z.add_mod obj 4), Ho by lia. replace (8 * q) with (2 * q * 4) by lia. rewrite Z_mod_mult. reflexivity.
Qed.

(** ** The static-memory port *)
Lemma port_alloc st led n : reach MEM MAX st led -> 0 < n -> n + 8 <= INT_MAX ->
  (port_allocate MEM MAX n st = Abort /\ forall st', memory_merge MEM MAX st = Ok (tt, st') -> forall a m, free_block MAX st' a m -> m < rounded n) \/
  (exists a st', port_allocate MEM MAX n st = Ok (Some a, st') /\ reach MEM MAX st' (<[a := n]> led) /\ led !! a = None).
Proof.
  intros HR H0 H8. destruct (progress MEM MAX HP _ _ HR) as (P1 & _ & P3 & _). destruct (P1 n H0 H8) as (p & st1 & E & _). unfold port_allocate. rewrite (bind_eq _ _ _ _ _ E). destruct p as [a|].
  - right. exists a, st1. split; [reflexivity|]. split; [apply (reach_alloc MEM MAX _ _ _ _ _ HR H0 H8 E)|]. apply (alloc_result MEM MAX HP _ _ _ _ _ HR H0 H8 E).
  - destruct (alloc_null MEM MAX HP _ _ n HR H0 H8) as (p & st2 & E2 & _ & Hs). rewrite E2 in E. injection E as -> <-. rewrite Hs in * by reflexivity. clear Hs. destruct P3 as (st3 & E3 & _). rewrite (bind_eq _ _ _ _ _ E3).
    pose proof (reach_merge _ _ _ _ _ HR E3) as HR3. destruct (alloc_null MEM MAX HP _ _ n HR3 H0 H8) as (p & st4 & E4 & Hp & _). rewrite (bind_eq _ _ _ _ _ E4). destruct p as [a|].
    + right. exists a, st4. split; [reflexivity|]. split; [apply (reach_alloc MEM MAX _ _ _ _ _ HR3 H0 H8 E4)|]. apply (alloc_result MEM MAX HP _ _ _ _ _ HR3 H0 H8 E4).
    + left. split; [reflexivity|]. intros st' E'. rewrite E3 in E'. injection E' as <-. apply Hp. reflexivity.
Qed.
Lemma port_dealloc st led a n : reach MEM MAX st led -> led !! a = Some n -> exists st', port_deallocate MEM MAX (Some a) n st = Ok (tt, st') /\ reach MEM MAX st' (delete a led).
Proof.
  intros HR Ha. destruct (progress MEM MAX HP _ _ HR) as (_ & P2 & _). destruct (P2 _ _ Ha) as (st' & E & _). exists st'. unfold port_deallocate. rewrite (bind_eq _ _ _ _ _ E). split; [reflexivity|]. eapply reach_dealloc; eassumption.
Qed.
End Refute.

(** ** Rounding *)
Lemma round_least n : n + 8 <= INT_MAX -> exists r, round_up n = Some r /\ r mod 8 = 0 /\ n <= r /\ forall m, m mod 8 = 0 -> n <= m -> r <= m.
Proof.
  intros H. exists (rounded n). split; [apply round_up_ok, H|]. split; [apply rounded_mod|]. pose proof (rounded_bounds n). split; [lia|]. intros m Hm Hle. destruct (div8 _ Hm) as [q Hq], (div8 _ (rounded_mod n)) as [r Hr]. lia.
Qed.
Lemma class_back n i : 0 < n -> n + 8 <= INT_MAX -> size_to_index n = Some i -> 0 <= i /\ n <= index_to_size i < n + 8.
Proof.
  intros H0 H8 H. unfold size_to_index in H. rewrite round_up_ok in H by exact H8. cbn in H. injection H as <-. pose proof (rounded_bounds n) as Hr. destruct (div8 _ (rounded_mod n)) as [q Hq]. unfold index_to_size. replace (Z.quot (rounded n) 8) with q by (rewrite Hq, Z.mul_comm, Z.quot_mul by lia; reflexivity). lia.
Qed.
Lemma round_overflow n : n + 7 <= INT_MAX -> (round_up n = None <-> n = INT_MAX - 7).
Proof. intros H. unfold round_up. destruct (Z.ltb_spec INT_MAX (n + 8)); split; intros; try discriminate; try reflexivity; lia. Qed.
