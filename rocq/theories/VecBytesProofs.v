(** Vectors over malloc with truncated byte counts. *)
From Verif Require Import Base VectorModel VectorSpec VectorProofs VecProg VectorWorld VectorExtra ArithModel ArithProofs VecBytesModel VecBytesSpec.
Local Open Scope nat_scope.
Notation zn := Z.of_nat.

Section Proofs.
Context {A : Type} (triv : bool) (s : Z).
Context (Hs : (1 <= s)%Z).
Notation world := (world A).
Notation fit n := (zn n * s <= INT_MAX)%Z.

Lemma bind_ext {S X Y} (p q : M S X) (f g : X -> M S Y) m : p m = q m -> (forall x m', f x m' = g x m') -> bind p f m = bind q g m.
Proof. intros H1 H2. unfold bind. rewrite H1. destruct (q m) as [[x m']| | |]; auto. Qed.

(** *** Requests that fit *)
Lemma b_alloc_eq n (m : mem A) : fit n -> b_alloc s n m = (b <- alloc n ;; ret (Some b)) m.
Proof.
  intros H. unfold b_alloc. destruct (spec_bytes_ok (zn n) s ltac:(lia) ltac:(lia) H) as [_ ->].
  unfold INT_MAX in H. destruct (Z.ltb_spec (zn n * s) (2 ^ 63)); [|lia].
  rewrite Z.div_mul, Nat2Z.id by lia. reflexivity.
Qed.
Lemma b_resize_eq n v (m : mem A) : fit n -> b_resize triv s n v m = v_resize triv n v m.
Proof. intros H. unfold b_resize, v_resize. apply bind_ext; [|reflexivity]. destruct (n =? 0); [reflexivity|]. apply b_alloc_eq, H. Qed.
Lemma b_resize_fill_eq n x v (m : mem A) : fit n -> b_resize_fill triv s n x v m = v_resize_fill triv n x v m.
Proof.
  intros H. unfold b_resize_fill, v_resize_fill. destruct (n =? 0); [apply b_resize_eq; unfold INT_MAX; lia|].
  etransitivity; [apply bind_ext; [apply b_alloc_eq, H|reflexivity]|]. reflexivity.
Qed.
Lemma b_fill_eq n x (m : mem A) : fit n -> b_fill triv s n x m = v_fill triv n x m.
Proof.
  intros H. unfold b_fill, v_fill. apply bind_ext; [reflexivity|]. intros _ m1. apply bind_ext; [apply b_resize_eq, H|reflexivity].
Qed.
Lemma b_copy_eq this ds (m : mem A) : fit (v_cap ds) -> b_copy_assign triv s this ds m = v_copy_assign triv this ds m.
Proof.
  intros H. unfold b_copy_assign, v_copy_assign. apply bind_ext; [reflexivity|]. intros v0 m1. apply bind_ext; [apply b_resize_eq, H|reflexivity].
Qed.
Lemma b_push_eq x v (m : mem A) : fit (if Nat.leb (v_cap v) (v_size v) then Nat.max 2 (2 * v_size v) else 0) ->
  b_push_back triv s x v m = v_push_back triv x v m.
Proof.
  intros H. unfold b_push_back, v_push_back. apply bind_ext; [|reflexivity].
  destruct (Nat.ltb_spec (v_cap v) (v_size v + 1)); [|reflexivity].
  destruct (Nat.leb_spec (v_cap v) (v_size v)); [|lia].
  destruct (Nat.eqb_spec (v_size v) 0) as [E|E]; cbn [negb]; apply b_resize_eq.
  - rewrite E in H. exact H.
  - replace (Nat.max 2 (2 * v_size v)) with (2 * v_size v) in H by lia. exact H.
Qed.
Lemma b_pop_eq v (m : mem A) : fit (if Nat.ltb (v_size v - 1) (v_cap v / 3) then v_cap v / 2 else 0) ->
  b_pop_back triv s v m = v_pop_back triv v m.
Proof.
  intros H. unfold b_pop_back, v_pop_back. apply bind_ext; [reflexivity|]. intros _ m1. apply bind_ext; [reflexivity|]. intros _ m2.
  destruct (Nat.ltb (v_size v - 1) (v_cap v / 3)); [apply b_resize_eq, H|reflexivity].
Qed.
Lemma lift_ext {X} (p q : M (mem A) X) (w : world) : p (w_mem w) = q (w_mem w) -> lift p w = lift q w.
Proof. intros H. unfold lift. rewrite H. reflexivity. Qed.
Lemma with_obj {X} id (f g : vec -> M world X) (w : world) : (forall v, w_objs w !! id = Some v -> f v w = g v w) ->
  (v <- obj id ;; f v) w = (v <- obj id ;; g v) w.
Proof. intros H. unfold bind, obj. destruct (w_objs w !! id) as [v|]; [apply H|]; reflexivity. Qed.
Lemma when_absent {X} id (f g : M world X) (w : world) : f w = g w -> (absent id ;;; f) w = (absent id ;;; g) w.
Proof. intros H. unfold bind, absent. destruct (w_objs w !! id) as [v|]; auto. Qed.
Lemma b_step_eq o (w : world) : fit (asks w o) -> b_step triv s o w = v_step triv o w.
Proof.
  intros H. destruct o as [id|id n a|id src|id src|id src|id src|id a|id|id i a|id n|id n a|id|id|id i|id|id|id|id|id];
    try reflexivity; cbn [b_step v_step asks] in *.
  - apply when_absent, bind_ext; [apply lift_ext, b_fill_eq, H|reflexivity].
  - apply when_absent, with_obj. intros v E. rewrite E in H. apply bind_ext; [apply lift_ext, b_copy_eq, H|reflexivity].
  - apply with_obj. intros v E. apply with_obj. intros u Eu. rewrite Eu in H.
    destruct (id =? src); [reflexivity|]. apply bind_ext; [apply lift_ext, b_copy_eq, H|reflexivity].
  - apply with_obj. intros v E. rewrite E in H. apply bind_ext; [apply lift_ext, b_push_eq, H|reflexivity].
  - apply with_obj. intros v E. rewrite E in H. apply bind_ext; [apply lift_ext, b_pop_eq, H|reflexivity].
  - apply with_obj. intros v E. apply bind_ext; [apply lift_ext, b_resize_eq, H|reflexivity].
  - apply with_obj. intros v E. apply bind_ext; [apply lift_ext, b_resize_fill_eq, H|reflexivity].
Qed.
(** All requests of a history fit. *)
Definition all_fit (ops : list (vop A)) (w0 : world) : Prop :=
  forall pre o post rs w, ops = pre ++ o :: post -> b_run triv s pre w0 = Ok (rs, w) -> fit (asks w o).
Lemma b_run_eq ops : forall w, all_fit ops w -> b_run triv s ops w = v_run triv ops w.
Proof.
  induction ops as [|o ops IH]; intros w H; [reflexivity|]. cbn [b_run v_run].
  assert (E : b_step triv s o w = v_step triv o w) by (apply b_step_eq, (H [] o ops [] w); reflexivity).
  unfold bind at 1 3. rewrite E. destruct (v_step triv o w) as [[r w1]| | |] eqn:Es; try reflexivity.
  assert (Hi : b_run triv s ops w1 = v_run triv ops w1).
  { apply IH. intros pre o' post rs w' -> Hr. apply (H (o :: pre) o' post (r :: rs) w'); [reflexivity|].
    cbn [b_run]. rewrite (bind_ok _ _ _ _ _ E), (bind_ok _ _ _ _ _ Hr). reflexivity. }
  unfold bind. rewrite Hi. reflexivity.
Qed.
Lemma bytes_history ops : all_fit ops world_init ->
  match s_run triv ops ∅ with
  | SVal (rs, st) => exists w, b_run triv s ops world_init = Ok (rs, w) /\ forall id, contents w id = st !! id
  | SAbort => b_run triv s ops world_init = Abort
  | SUnspec => b_run triv s ops world_init = UB
  end.
Proof. intros H. rewrite (b_run_eq _ _ H). apply history_correct. Qed.

(** *** Requests that do not fit *)
(** What such a request gives: nothing, or fewer than [n] cells. *)
Lemma b_alloc_bad n (m : mem A) : (INT_MAX < zn n * s)%Z ->
  if (spec_bytes (zn n) s <? 0)%Z
  then b_alloc s n m = Ok (None, Mem (m_blocks m) (S (m_next m)) (m_leaked m) (m_ctor m))
  else Z.to_nat (spec_bytes (zn n) s / s) < n /\
       b_alloc s n m = Ok (Some (m_next m), Mem (<[m_next m := replicate (Z.to_nat (spec_bytes (zn n) s / s)) None]> (m_blocks m)) (S (m_next m)) (m_leaked m) (m_ctor m)).
Proof.
  intros H. unfold b_alloc. destruct (spec_bytes_bad (zn n) s ltac:(lia) ltac:(lia) H) as [[H1 H2]|[H1 H2]].
  - destruct (Z.ltb_spec (spec_bytes (zn n) s) 0); [lia|].
    assert (Hr : (spec_bytes (zn n) s <= INT_MAX)%Z) by (rewrite spec_bytes_to_int; apply to_int_range).
    assert (E : malloc_arg (spec_bytes (zn n) s) = spec_bytes (zn n) s).
    { unfold malloc_arg, to_size. apply Z.mod_small. unfold INT_MAX in Hr. lia. }
    rewrite E in *. unfold INT_MAX in Hr. destruct (Z.ltb_spec (spec_bytes (zn n) s) (2 ^ 63)); [|lia]. split; [|reflexivity].
    apply Nat2Z.inj_lt. rewrite Z2Nat.id by (apply Z.div_pos; lia). apply Z.div_lt_upper_bound; lia.
  - destruct (Z.ltb_spec (spec_bytes (zn n) s) 0); [|lia]. destruct (Z.ltb_spec (malloc_arg (spec_bytes (zn n) s)) (2 ^ 63)); [lia|reflexivity].
Qed.
(** Constructing beyond the end of a block. *)
Lemma construct_beyond b (a : A) c : forall st (m : mem A) cs, m_blocks m !! b = Some cs -> st <= length cs < st + c ->
  for_range st c (fun i => x <- read_arg (AVal a) ;; construct (Some b) i x) m = UB.
Proof.
  induction c as [|c IH]; intros st m cs Hb Hc; [lia|]. cbn [for_range]. unfold bind at 1. unfold bind at 1. cbn [read_arg ret].
  unfold construct. rewrite Hb. destruct (cs !! st) as [x|] eqn:E; [|reflexivity].
  pose proof (lookup_lt_Some _ _ _ E). apply (IH _ _ (<[st := Some a]> cs)); [apply lookup_insert|rewrite insert_length; lia].
Qed.
Lemma fill_bad id n (a : A) (w : world) : w_objs w !! id = None -> (INT_MAX < zn n * s)%Z ->
  b_step triv s (OFill id n a) w = if (spec_bytes (zn n) s <? 0)%Z then Abort else UB.
Proof.
  intros Hw Hn. cbn [b_step]. assert (Hn0 : n <> 0) by (intros ->; unfold INT_MAX in Hn; lia).
  assert (E : b_fill triv s n (AVal a) (w_mem w) = if (spec_bytes (zn n) s <? 0)%Z then Abort else UB).
  { unfold b_fill, b_resize. destruct (Nat.eqb_spec n 0); [lia|]. cbn [negb dassert].
    pose proof (b_alloc_bad n (w_mem w) Hn) as Ha. unfold bind at 1. cbn [ret v_ptr v_empty v_size].
    destruct (spec_bytes (zn n) s <? 0)%Z.
    - unfold bind at 1 2. rewrite Ha. destruct n as [|n]; [lia|]. cbn. reflexivity.
    - destruct Ha as [Hlt Ha]. unfold bind at 1 2. rewrite Ha. cbn [bind ret v_ptr].
      unfold bind at 1. cbn [ret]. unfold bind at 1. cbn [ret v_ptr]. apply bind_ub. eapply construct_beyond; [apply lookup_insert|].
      rewrite replicate_length. lia. }
  unfold bind, absent, lift. rewrite Hw, E. destruct (spec_bytes (zn n) s <? 0)%Z; reflexivity.
Qed.

Lemma b_run_app ops1 ops2 (w : world) rs w1 : b_run triv s ops1 w = Ok (rs, w1) ->
  b_run triv s (ops1 ++ ops2) w =
    match b_run triv s ops2 w1 with Ok (rs2, w2) => Ok (rs ++ rs2, w2) | Abort => Abort | UB => UB | Diverge => Diverge end.
Proof.
  revert w rs. induction ops1 as [|o ops IH]; intros w rs; cbn [b_run app].
  - intros [= <- <-]. destruct (b_run triv s ops2 w) as [[]| | |]; reflexivity.
  - intros H. apply bind_inv in H as (r & w' & E & H). apply bind_inv in H as (rs' & w'' & E' & H). injection H as <- <-.
    rewrite (bind_ok _ _ _ _ _ E). unfold bind. rewrite (IH _ _ E'). destruct (b_run triv s ops2 _) as [[]| | |]; reflexivity.
Qed.
(** Growing a full vector beyond what an int can count. *)
Lemma push_bad (w : world) ls id l cap (a : A) : winv w ls -> ls !! id = Some (LVec l cap) -> length l = cap -> 1 <= cap ->
  fit cap -> (INT_MAX < zn (2 * cap) * s)%Z -> b_step triv s (OPush id a) w = Abort.
Proof.
  intros Hw Hl Hc H1 Hf Hbad. destruct (winv_obj _ _ _ _ Hw Hl) as (v & Hv & Hr & Hcv). cbn [l_seq l_cap] in *.
  cbn [b_step]. unfold bind, obj. rewrite Hv. unfold lift.
  assert (E : b_push_back triv s (AVal a) v (w_mem w) = Abort); [|rewrite E; reflexivity].
  pose proof (vrep_size _ _ _ Hr) as Hsz. unfold b_push_back. apply bind_abort.
  destruct (Nat.ltb_spec (v_cap v) (v_size v + 1)); [|lia]. destruct (Nat.eqb_spec (v_size v) 0); [lia|]. cbn [negb].
  unfold b_resize. destruct (Nat.eqb_spec (2 * v_size v) 0); [lia|].
  assert (Hneg : (spec_bytes (zn (2 * v_size v)) s < 0)%Z).
  { rewrite spec_bytes_to_int. rewrite Hsz, Hc. unfold INT_MAX in *. unfold to_int.
    rewrite <- (Z.mod_unique (zn (2 * cap) * s + 2 ^ 31) (2 ^ 32) 1 (zn (2 * cap) * s - 2 ^ 31)); lia. }
  rewrite Hsz, Hc in *. pose proof (b_alloc_bad (2 * cap) (w_mem w) Hbad) as Ha.
  destruct (Z.ltb_spec (spec_bytes (zn (2 * cap)) s) 0); [|lia]. rewrite (bind_ok _ _ _ _ _ Ha).
  destruct Hr as (Hlen & Hle & Hp). destruct (v_ptr v) as [b|]; [|lia]. destruct Hp as [Hne Hb]. apply bind_abort.
  unfold bind at 1. unfold dassert. destruct (Nat.eqb_spec (v_cap v) 0); [lia|]. cbn [negb ret]. apply bind_abort.
  destruct cap as [|c]; [lia|]. cbn [for_range]. apply bind_abort, bind_abort. destruct (Nat.ltb_spec 0 (2 * S c)); [|lia].
  destruct l as [|x l]; [cbn in Hlen; lia|].
  assert (El : load (Some b) 0 (Mem (m_blocks (w_mem w)) (S (m_next (w_mem w))) (m_leaked (w_mem w)) (m_ctor (w_mem w))) =
    Ok (x, Mem (m_blocks (w_mem w)) (S (m_next (w_mem w))) (m_leaked (w_mem w)) (m_ctor (w_mem w)))).
  { unfold load. cbn [m_blocks]. rewrite Hb. unfold cells. reflexivity. }
  rewrite (bind_ok _ _ _ _ _ El). reflexivity.
Qed.

(** *** Pushing one by one *)
Lemma grown_push n : cap_push n (grown n) = grown (S n).
Proof.
  unfold cap_push, grown. destruct n as [|n]; [reflexivity|]. change (S n =? 0) with false. change (S (S n) =? 0) with false. cbv iota.
  destruct (decide (n = 0)) as [->|Hn]; [reflexivity|].
  assert (Hlog : 2 ^ Nat.pred (Nat.log2_up (S n)) < S n <= 2 ^ Nat.log2_up (S n)) by (apply Nat.log2_up_spec; lia).
  assert (H1 : 1 <= Nat.log2_up (S n)) by (apply Nat.log2_up_pos; lia).
  assert (Hp : 2 <= 2 ^ Nat.log2_up (S n)).
  { replace (Nat.log2_up (S n)) with (S (Nat.pred (Nat.log2_up (S n)))) by lia. rewrite Nat.pow_succ_r'. pose proof (Nat.pow_nonzero 2 (Nat.pred (Nat.log2_up (S n))) ltac:(lia)). lia. }
  replace (Nat.max 2 (2 ^ Nat.log2_up (S n))) with (2 ^ Nat.log2_up (S n)) by lia.
  destruct (Nat.eqb_spec (S n) (2 ^ Nat.log2_up (S n))) as [E|E].
  - assert (E2 : Nat.log2_up (S (S n)) = S (Nat.log2_up (S n))).
    { apply Nat.log2_up_unique; [lia|]. cbn [Nat.pred]. rewrite Nat.pow_succ_r'. rewrite <- E. lia. }
    rewrite E2, Nat.pow_succ_r'. lia.
  - assert (E2 : Nat.log2_up (S (S n)) = Nat.log2_up (S n)).
    { set (L := Nat.log2_up (S n)) in *. apply Nat.log2_up_unique; [lia|]. generalize dependent (2 ^ Nat.pred L). intros q. generalize dependent (2 ^ L). intros. lia. }
    rewrite E2. lia.
Qed.
Lemma grown_pow k : 1 <= k -> grown (2 ^ k) = 2 ^ k.
Proof.
  intros H. unfold grown. pose proof (Nat.pow_nonzero 2 k ltac:(lia)). destruct (Nat.eqb_spec (2 ^ k) 0); [lia|].
  rewrite Nat.log2_up_pow2 by lia. replace k with (S (k - 1)) by lia. rewrite Nat.pow_succ_r'.
  pose proof (Nat.pow_nonzero 2 (k - 1) ltac:(lia)). lia.
Qed.
Lemma grown_le n k : 1 <= k -> n <= 2 ^ k -> grown n <= 2 ^ k.
Proof.
  intros H Hn. unfold grown. destruct (Nat.eqb_spec n 0); [lia|].
  assert (2 <= 2 ^ k) by (replace k with (S (k - 1)) by lia; rewrite Nat.pow_succ_r'; pose proof (Nat.pow_nonzero 2 (k - 1) ltac:(lia)); lia).
  assert (Nat.log2_up n <= k) by (rewrite <- (Nat.log2_up_pow2 k) by lia; apply Nat.log2_up_le_mono; lia).
  pose proof (Nat.pow_le_mono_r 2 (Nat.log2_up n) k ltac:(lia) ltac:(lia)). lia.
Qed.
Lemma pushes_ok id k (l2 : list A) : 1 <= k -> fit (2 ^ k) -> forall (w : world) l1 ls,
  winv w ls -> ls !! id = Some (LVec l1 (grown (length l1))) -> length l1 + length l2 <= 2 ^ k ->
  exists rs w' ls', b_run triv s (map (OPush id) l2) w = Ok (rs, w') /\ winv w' ls' /\ ls' !! id = Some (LVec (l1 ++ l2) (grown (length (l1 ++ l2)))).
Proof.
  intros Hk Hf. induction l2 as [|a l2 IH]; intros w l1 ls Hw Hl Hn; cbn [map b_run].
  - exists [], w, ls. rewrite app_nil_r. auto.
  - cbn [length] in Hn.
    assert (E : b_step triv s (OPush id a) w = v_step triv (OPush id a) w).
    { apply b_step_eq. cbn [asks]. destruct (winv_obj _ _ _ _ Hw Hl) as (v & Hv & Hr & Hcv). cbn [l_seq l_cap] in *. rewrite Hv, Hcv, (vrep_size _ _ _ Hr).
      destruct (Nat.leb_spec (grown (length l1)) (length l1)) as [Hle|]; [|unfold INT_MAX; lia].
      pose proof (grown_push (length l1)) as Hg. pose proof (grown_le (S (length l1)) k Hk ltac:(lia)) as Hg2.
      assert (Heq : length l1 = grown (length l1)).
      { pose proof (proj1 (proj2 Hr)). rewrite Hcv, (vrep_size _ _ _ Hr) in *. lia. }
      unfold cap_push in Hg. rewrite <- Heq, Nat.eqb_refl in Hg. rewrite Hg. nia. }
    pose proof (v_step_sim triv (OPush id a) w ls Hw) as Hsim. cbn [lv_step] in Hsim. unfold lwith in Hsim. rewrite Hl in Hsim. cbn [l_seq l_cap sim_res] in Hsim.
    destruct Hsim as (w1 & E1 & Hw1). rewrite grown_push in Hw1. rewrite <- E in E1.
    destruct (IH w1 (l1 ++ [a]) _ Hw1) as (rs & w' & ls' & Er & Hw' & Hl').
    + rewrite lookup_insert. rewrite app_length. cbn [length]. rewrite Nat.add_1_r. reflexivity.
    + rewrite app_length. cbn. lia.
    + rewrite (bind_ok _ _ _ _ _ E1), (bind_ok _ _ _ _ _ Er). rewrite <- app_assoc in Hl'. cbn [app] in Hl'. do 3 eexists. split; [reflexivity|]. split; [exact Hw'|exact Hl'].
Qed.
Lemma abort_app ops1 ops2 (w : world) : b_run triv s ops1 w = Abort -> b_run triv s (ops1 ++ ops2) w = Abort.
Proof.
  revert w. induction ops1 as [|o ops IH]; intros w; cbn [b_run app]; [discriminate|].
  unfold bind. destruct (b_step triv s o w) as [[r w1]| | |]; [|auto; discriminate..].
  destruct (b_run triv s ops w1) as [[rs w2]| | |] eqn:E; [discriminate|intros _|discriminate|discriminate].
  rewrite (IH _ E). reflexivity.
Qed.
Lemma pushes_bytes k (l : list A) : 1 <= k -> fit (2 ^ k) -> (INT_MAX < zn (2 ^ S k) * s)%Z ->
  let run := b_run triv s (ONew 0 :: map (OPush 0) l) world_init in
  if length l <=? 2 ^ k then exists rs w, run = Ok (rs, w) /\ contents w 0 = Some l else run = Abort.
Proof.
  intros Hk Hf Hbad run.
  pose proof (v_step_sim (A := A) triv (ONew 0) world_init ∅ winv_init) as Hsim. cbn [lv_step] in Hsim. unfold lnew in Hsim. rewrite lookup_empty in Hsim.
  destruct Hsim as (w0 & E0 & Hw0). change (v_step triv (ONew 0) world_init) with (b_step triv s (ONew 0) (world_init (A := A))) in E0.
  assert (Hr0 : b_run triv s [ONew 0] world_init = Ok ([RUnit], w0)) by (cbn [b_run]; rewrite (bind_ok _ _ _ _ _ E0); reflexivity).
  unfold run. change (ONew 0 :: map (OPush 0) l) with ([ONew 0] ++ map (OPush 0) l). rewrite (b_run_app _ _ _ _ _ Hr0).
  assert (Hl0 : (<[0 := LVec [] 0]> ∅ : lworld A) !! 0 = Some (LVec [] (grown (length ([] : list A))))) by apply lookup_insert.
  destruct (Nat.leb_spec (length l) (2 ^ k)) as [Hle|Hgt].
  - destruct (pushes_ok 0 k l Hk Hf w0 [] _ Hw0 Hl0 ltac:(cbn; lia)) as (rs & w' & ls' & -> & Hw' & Hl').
    do 2 eexists. split; [reflexivity|]. rewrite (winv_contents _ _ Hw'), Hl'. reflexivity.
  - assert (Hsp : l = firstn (2 ^ k) l ++ skipn (2 ^ k) l) by (symmetry; apply firstn_skipn).
    assert (Hfl : length (firstn (2 ^ k) l) = 2 ^ k) by (rewrite firstn_length; lia).
    assert (Hsl : length (skipn (2 ^ k) l) = length l - 2 ^ k) by apply skipn_length.
    destruct (skipn (2 ^ k) l) as [|a l2] eqn:Es; [cbn in Hsl; lia|].
    destruct (pushes_ok 0 k (firstn (2 ^ k) l) Hk Hf w0 [] _ Hw0 Hl0 ltac:(cbn; lia)) as (rs & w' & ls' & Er & Hw' & Hl').
    cbn [app] in Hl'. rewrite Hsp, map_app, (b_run_app _ _ _ _ _ Er). rewrite Hfl, grown_pow in Hl' by assumption.
    cbn [map b_run]. pose proof (Nat.pow_nonzero 2 k ltac:(lia)).
    assert (E : b_step triv s (OPush 0 a) w' = Abort) by (eapply push_bad; [exact Hw'|exact Hl'|exact Hfl|lia|exact Hf|exact Hbad]).
    rewrite (bind_abort _ _ _ E). reflexivity.
Qed.

(** *** Reserving *)
Lemma reserve_pushes (l2 : list A) n k b : k < n -> forall (w : world) (l1 : list A),
  w_objs w !! 0 = Some (Vec (length l1) n (Some b)) ->
  (exists cs, m_blocks (w_mem w) !! b = Some cs /\ length cs = k) -> length l1 <= k ->
  if length l1 + length l2 <=? k
  then exists rs w', b_run triv s (map (OPush 0) l2) w = Ok (rs, w') /\ w_objs w' !! 0 = Some (Vec (length l1 + length l2) n (Some b))
  else b_run triv s (map (OPush 0) l2) w = UB.
Proof.
  intros Hkn. induction l2 as [|a l2 IH]; intros w l1 Hv (cs & Hb & Hk) Hl1; cbn [map b_run length].
  - destruct (Nat.leb_spec (length l1 + 0) k); [|lia]. exists [], w. rewrite Nat.add_0_r. auto.
  - destruct (cs !! length l1) as [x|] eqn:E.
    + pose proof (lookup_lt_Some _ _ _ E).
      assert (Es : exists w1, b_step triv s (OPush 0 a) w = Ok (RUnit, w1) /\ w_objs w1 !! 0 = Some (Vec (length (l1 ++ [a])) n (Some b)) /\
        m_blocks (w_mem w1) !! b = Some (<[length l1 := Some a]> cs)).
      { cbn [b_step]. unfold obj, lift, b_push_back, construct, set_obj, read_arg, bind, ret. rewrite Hv. cbn [v_cap v_size v_ptr].
        destruct (Nat.ltb_spec n (length l1 + 1)); [lia|]. cbn [bind ret read_arg v_cap v_size v_ptr]. rewrite Hb, E. eexists.
        split; [reflexivity|]. cbn [w_objs w_mem m_blocks]. rewrite !lookup_insert, app_length. auto. }
      destruct Es as (w1 & Es & Ho & Hb1). rewrite (bind_ok _ _ _ _ _ Es).
      specialize (IH w1 (l1 ++ [a]) Ho ltac:(eexists; split; [exact Hb1|rewrite insert_length; exact Hk]) ltac:(rewrite app_length; cbn; lia)).
      rewrite app_length in IH. cbn [length] in IH. replace (length l1 + 1 + length l2) with (length l1 + S (length l2)) in IH by lia.
      destruct (length l1 + S (length l2) <=? k).
      * destruct IH as (rs & w' & Er & Ho'). rewrite (bind_ok _ _ _ _ _ Er). do 2 eexists. split; [reflexivity|exact Ho'].
      * apply bind_ub, IH.
    + apply lookup_ge_None in E. destruct (Nat.leb_spec (length l1 + S (length l2)) k); [lia|]. apply bind_ub.
      cbn [b_step]. unfold obj, lift, b_push_back, construct, read_arg, bind, ret. rewrite Hv. cbn [v_cap v_size v_ptr].
      destruct (Nat.ltb_spec n (length l1 + 1)); [lia|]. cbn [bind ret read_arg v_cap v_size v_ptr]. rewrite Hb.
      destruct (cs !! length l1) as [x|] eqn:E2; [apply lookup_lt_Some in E2; lia|reflexivity].
Qed.
Lemma reserve_bad n (l : list A) : (INT_MAX < zn n * s)%Z ->
  let run := b_run triv s (ONew 0 :: OResize 0 n :: map (OPush 0) l) world_init in
  if (spec_bytes (zn n) s <? 0)%Z
  then (l <> [] -> run = Abort)
  else Z.to_nat (spec_bytes (zn n) s / s) < n /\
       if length l <=? Z.to_nat (spec_bytes (zn n) s / s) then exists rs w, run = Ok (rs, w) else run = UB.
Proof.
  intros Hn run. assert (Hn0 : n <> 0) by (intros ->; unfold INT_MAX in Hn; lia).
  assert (E0 : b_step triv s (ONew 0) world_init = Ok (RUnit, World mem_init (<[0 := v_empty]> ∅) : world)) by reflexivity.
  pose proof (b_alloc_bad n (mem_init (A := A)) Hn) as Ha. unfold run. cbn [b_run]. rewrite (bind_ok _ _ _ _ _ E0).
  assert (E1 : forall p m, b_alloc s n (mem_init (A := A)) = Ok (p, m) ->
    b_step triv s (OResize 0 n) (World mem_init (<[0 := v_empty]> ∅)) = Ok (RUnit, World m (<[0 := Vec 0 n p]> ∅))).
  { intros p m Em. cbn [b_step]. unfold obj, lift, b_resize, set_obj, bind, ret. cbn [w_objs]. rewrite lookup_insert. cbn [w_mem v_ptr v_empty v_size].
    destruct (Nat.eqb_spec n 0); [lia|]. rewrite Em. cbn [w_objs w_mem]. destruct (Nat.ltb_spec n 0); [lia|]. rewrite insert_insert. reflexivity. }
  destruct (spec_bytes (zn n) s <? 0)%Z.
  - intros Hl. destruct l as [|a l]; [congruence|]. rewrite (bind_abort _ _ (World mem_init (<[0 := v_empty]> ∅))); [reflexivity|].
    rewrite (bind_ok _ _ _ _ _ (E1 _ _ Ha)). cbn [map b_run]. apply bind_abort, bind_abort.
    cbn [b_step]. unfold obj, lift, b_push_back, construct, read_arg, bind, ret. cbn [w_objs]. rewrite lookup_insert. cbn [v_cap v_size v_ptr w_mem].
    destruct (Nat.ltb_spec n (0 + 1)); [lia|]. reflexivity.
  - destruct Ha as [Hlt Ha]. split; [exact Hlt|]. set (m1 := Mem (<[_ := _]> _) _ _ _) in Ha.
    pose proof (reserve_pushes l n _ (m_next (mem_init (A := A))) Hlt (World m1 (<[0 := Vec 0 n (Some (m_next (mem_init (A := A))))]> ∅)) []
      (lookup_insert _ _ _) ltac:(eexists; split; [cbn [w_mem]; unfold m1; cbn [m_blocks]; apply lookup_insert|apply replicate_length]) ltac:(cbn; lia)) as Hp.
    cbn [length Nat.add] in Hp. destruct (length l <=? _).
    + destruct Hp as (rs & w' & Er & _). exists (RUnit :: RUnit :: rs), w'.
      rewrite (bind_ok _ _ _ (RUnit :: rs) w'); [reflexivity|]. rewrite (bind_ok _ _ _ _ _ (E1 _ _ Ha)), (bind_ok _ _ _ _ _ Er). reflexivity.
    + apply bind_ub. rewrite (bind_ok _ _ _ _ _ (E1 _ _ Ha)). apply bind_ub, Hp.
Qed.
End Proofs.

(** Checking the hypothesis of [bytes_history] on a history. *)
Definition fit_at {A} (triv : bool) (s : Z) (ops : list (vop A)) (k : nat) : bool :=
  match b_run triv s (firstn k ops) world_init, skipn k ops with
  | Ok (_, w), o :: _ => (Z.of_nat (asks w o) * s <=? INT_MAX)%Z
  | _, _ => true
  end.
Lemma fit_at_ok {A} triv s (ops : list (vop A)) : forallb (fit_at triv s ops) (seq 0 (length ops)) = true ->
  forall pre o post rs w, ops = pre ++ o :: post -> b_run triv s pre world_init = Ok (rs, w) -> (Z.of_nat (asks w o) * s <= INT_MAX)%Z.
Proof.
  intros H pre o post rs w -> Hr. rewrite forallb_forall in H. specialize (H (length pre)).
  assert (Hin : In (length pre) (seq 0 (length (pre ++ o :: post)))) by (apply in_seq; rewrite app_length; cbn; lia).
  specialize (H Hin). unfold fit_at in H. rewrite firstn_app, Nat.sub_diag, firstn_all, firstn_O, app_nil_r, Hr in H.
  rewrite skipn_app, skipn_all, Nat.sub_diag in H. cbn [skipn app] in H. lia.
Qed.
