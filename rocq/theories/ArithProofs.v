(** Facts about ArithModel. *)
From Verif Require Import Base TreeSpec ArithModel ArithSpec.
Open Scope Z_scope.

Lemma to_int_range z : INT_MIN <= to_int z <= INT_MAX.
Proof. unfold to_int, INT_MIN, INT_MAX. pose proof (Z.mod_pos_bound (z + 2 ^ 31) (2 ^ 32) ltac:(lia)). lia. Qed.
Lemma to_int_id z : INT_MIN <= z <= INT_MAX -> to_int z = z.
Proof. unfold to_int, INT_MIN, INT_MAX. intros H. rewrite Z.mod_small; lia. Qed.
Lemma to_int_eq z1 z2 : z1 mod 2 ^ 32 = z2 mod 2 ^ 32 -> to_int z1 = to_int z2.
Proof. intros H. unfold to_int. rewrite (Z.add_mod z1), (Z.add_mod z2) by lia. rewrite H. reflexivity. Qed.
Lemma to_int_mod z : to_int z mod 2 ^ 32 = z mod 2 ^ 32.
Proof.
  unfold to_int. rewrite Zminus_mod, Z.mod_mod by lia. rewrite <- Zminus_mod. f_equal. lia.
Qed.
Lemma to_size_mod z : to_size z mod 2 ^ 32 = z mod 2 ^ 32.
Proof.
  unfold to_size. change (2 ^ 64) with (2 ^ 32 * 2 ^ 32). rewrite Z.rem_mul_r by lia.
  rewrite Z.add_mod by lia. rewrite Z.mod_mod by lia.
  replace (2 ^ 32 * ((z / 2 ^ 32) mod 2 ^ 32)) with (((z / 2 ^ 32) mod 2 ^ 32) * 2 ^ 32) by lia. rewrite Z.mod_mul by lia.
  rewrite Z.add_0_r, Z.mod_mod by lia. reflexivity.
Qed.
Lemma spec_bytes_to_int n s : spec_bytes n s = to_int (n * s).
Proof.
  unfold spec_bytes. apply to_int_eq. rewrite to_size_mod. rewrite Z.mul_mod by lia. rewrite to_size_mod, to_int_mod.
  rewrite <- Z.mul_mod by lia. reflexivity.
Qed.

Lemma spec_bytes_ok n s : 0 <= n -> 0 <= s -> n * s <= INT_MAX -> spec_bytes n s = n * s /\ malloc_arg (spec_bytes n s) = n * s.
Proof.
  intros Hn Hs H. assert (0 <= n * s) by lia. rewrite spec_bytes_to_int, to_int_id by (unfold INT_MIN; lia). split; [reflexivity|].
  unfold malloc_arg, to_size. apply Z.mod_small. unfold INT_MAX in H. lia.
Qed.
Lemma spec_bytes_bad n s : 0 <= n -> 0 <= s -> INT_MAX < n * s ->
  (0 <= spec_bytes n s /\ malloc_arg (spec_bytes n s) + 2 ^ 32 <= n * s) \/
  (spec_bytes n s < 0 /\ 2 ^ 64 - 2 ^ 31 <= malloc_arg (spec_bytes n s)).
Proof.
  intros Hn Hs H. rewrite spec_bytes_to_int. pose proof (to_int_range (n * s)) as R. pose proof (to_int_mod (n * s)) as E.
  set (k := to_int (n * s)) in *. unfold INT_MIN, INT_MAX in *. destruct (decide (0 <= k)) as [Hk|Hk].
  - left. split; [exact Hk|]. unfold malloc_arg, to_size. rewrite (Z.mod_small k (2 ^ 64)) by lia.
    rewrite (Z.mod_small k (2 ^ 32)) in E by lia. pose proof (Z.div_mod (n * s) (2 ^ 32) ltac:(lia)) as D. rewrite <- E in D.
    assert (0 < n * s / 2 ^ 32); [|lia]. assert (n * s / 2 ^ 32 <> 0) by lia. pose proof (Z.div_pos (n * s) (2 ^ 32)). lia.
  - right. split; [lia|]. unfold malloc_arg, to_size.
    replace (k mod 2 ^ 64) with (k + 2 ^ 64); [lia|]. apply (Zmod_unique_full _ _ (-1)); [left; lia|lia].
Qed.
(** Every element size has counts for which a block without room for them is
    asked for. *)
Lemma spec_bytes_short s : 1 <= s <= INT_MAX -> exists n, 0 < n <= 2 ^ 32 /\ 0 <= spec_bytes n s < s /\ spec_bytes n s < n * s.
Proof.
  intros Hs. unfold INT_MAX in Hs.
  set (n := (2 ^ 32 + s - 1) / s).
  assert (n * s <= 2 ^ 32 + s - 1 < n * s + s) as B.
  { pose proof (Z.div_mod (2 ^ 32 + s - 1) s ltac:(lia)) as D. pose proof (Z.mod_pos_bound (2 ^ 32 + s - 1) s ltac:(lia)). fold n in D. nia. }
  assert (0 < n) by nia. assert (n <= 2 ^ 32) by nia. exists n. split; [lia|].
  rewrite spec_bytes_to_int.
  assert (to_int (n * s) = n * s - 2 ^ 32) as ->.
  { rewrite (to_int_eq _ (n * s - 2 ^ 32)); [apply to_int_id; unfold INT_MIN, INT_MAX; lia|].
    rewrite Zminus_mod, Z_mod_same_full, Z.sub_0_r, Z.mod_mod by lia. reflexivity. }
  lia.
Qed.

(** ** Pointer comparators *)
Section P.
Context {P : Type} (null : P) (eqb raw : P -> P -> bool).
Hypothesis Heq : forall a b, eqb a b = true <-> a = b.
Hypothesis Hir : forall a, a <> null -> raw a a = false.
Hypothesis Htr : forall a b c, a <> null -> b <> null -> c <> null -> raw a b = true -> raw b c = true -> raw a c = true.
Hypothesis Hto : forall a b, a <> null -> b <> null -> a = b \/ raw a b = true \/ raw b a = true.
Lemma eqb_case a b : (a = b /\ eqb a b = true) \/ (a <> b /\ eqb a b = false).
Proof. destruct (eqb a b) eqn:E; [left; split; [apply Heq, E|reflexivity]|right; split; [|reflexivity]]. intros H. apply Heq in H. congruence. Qed.
Lemma less_ptr_total : strict_total (less_ptr null eqb raw).
Proof.
  unfold less_ptr. split; [|split].
  - intros a. destruct (eqb_case a null) as [[_ ->]|[H ->]]; auto.
  - intros a b c. destruct (eqb_case c null) as [[_ ->]|[Hc' ->]]; [destruct (eqb b null), (eqb a null); discriminate|].
    destruct (eqb_case b null) as [[_ ->]|[Hb ->]]; [discriminate|]. destruct (eqb_case a null) as [[_ ->]|[Ha ->]]; [auto|]. apply Htr; assumption.
  - intros a b. destruct (eqb_case b null) as [[-> ->]|[Hb ->]]; destruct (eqb_case a null) as [[-> ->]|[Ha ->]]; auto.
Qed.
Lemma less_ptr_null a : less_ptr null eqb raw a null = false /\ (a <> null -> less_ptr null eqb raw null a = true).
Proof.
  unfold less_ptr. destruct (eqb_case null null) as [[_ ->]|[H _]]; [|congruence]. split; [reflexivity|].
  intros Ha. destruct (eqb_case a null) as [[-> _]|[_ ->]]; [congruence|reflexivity].
Qed.
Lemma greater_ptr_conv a b : greater_ptr null eqb raw a b = less_ptr null eqb raw b a.
Proof. reflexivity. Qed.
Lemma ptr_order : strict_total (less_ptr null eqb raw) /\ strict_total (greater_ptr null eqb raw) /\
  (forall a b, greater_ptr null eqb raw a b = less_ptr null eqb raw b a) /\
  (forall a, a <> null -> less_ptr null eqb raw null a = true /\ less_ptr null eqb raw a null = false).
Proof.
  pose proof less_ptr_total as (H1 & H2 & H3). split; [split; [exact H1|split; [exact H2|exact H3]]|]. split; [split; [exact H1|split]|split; [reflexivity|]].
  - intros a b c Hab Hbc. exact (H2 c b a Hbc Hab).
  - intros a b. destruct (H3 b a) as [->|[H|H]]; auto.
  - intros a Ha. destruct (less_ptr_null a) as [E1 E2]. auto.
Qed.
End P.
(** Strict total orders are fit for the trees. *)
Lemma strict_total_swo {P} (lt : P -> P -> bool) : strict_total lt -> swo lt.
Proof.
  intros (H1 & H2 & H3). split.
  - intros a b Hab. destruct (lt b a) eqn:E; [|reflexivity]. specialize (H1 a). rewrite (H2 _ _ _ Hab E) in H1. discriminate.
  - intros a b c Hab. destruct (H3 a c) as [->|[H|H]]; [auto|auto|right; exact (H2 _ _ _ H Hab)].
Qed.

(** ** swap, max, abs *)
Lemma swap_ok {V} (left : V -> V) (s : gmap nat V) a b x y : s !! a = Some x -> s !! b = Some y ->
  exists s', swap_ref left a b s = Ok (tt, s') /\ s' !! a = Some y /\ s' !! b = Some x /\ forall k, k <> a -> k <> b -> s' !! k = s !! k.
Proof.
  intros Ha Hb. unfold swap_ref, move_from. erewrite bind_ok by (rewrite Ha; reflexivity). unfold move_assign.
  destruct (Nat.eqb_spec a b) as [->|Hab].
  - rewrite Ha in Hb. injection Hb as <-. erewrite bind_ok by (rewrite lookup_insert; reflexivity).
    unfold assign_val. rewrite lookup_insert. eexists. split; [reflexivity|]. rewrite lookup_insert. split; [reflexivity|]. split; [reflexivity|].
    intros k Hk _. rewrite !lookup_insert_ne by congruence. reflexivity.
  - erewrite bind_ok by (rewrite lookup_insert, lookup_insert_ne by congruence; rewrite Hb; reflexivity).
    unfold assign_val. rewrite lookup_insert_ne by congruence. rewrite lookup_insert. eexists. split; [reflexivity|].
    rewrite lookup_insert_ne by congruence. rewrite !lookup_insert. split; [reflexivity|]. split; [reflexivity|].
    intros k H1 H2. rewrite !lookup_insert_ne by congruence. reflexivity.
Qed.
Lemma max_int a b : max_val Z.gtb a b = Z.max a b.
Proof. unfold max_val. destruct (Z.gtb_spec a b); lia. Qed.
Lemma max_gen {V} (lt : V -> V -> bool) a b : (forall x y, lt x y = true -> lt y x = false) ->
  let m := max_val (fun x y => lt y x) a b in (m = a \/ m = b) /\ lt m a = false /\ lt m b = false.
Proof.
  intros Has m. unfold m, max_val. assert (forall x, lt x x = false) as Hir by (intros x; destruct (lt x x) eqn:E; [rewrite (Has _ _ E) in E; discriminate|reflexivity]).
  destruct (lt b a) eqn:E; auto.
Qed.
Lemma abs_ok a : INT_MIN <= a <= INT_MAX -> abs_int a = if Z.eqb a INT_MIN then UB else Ok (Z.abs a).
Proof.
  intros H. unfold abs_int, int_neg. destruct (Z.geb_spec a 0); destruct (Z.eqb_spec a INT_MIN); unfold INT_MIN in *; try lia; [|reflexivity|];
  f_equal; lia.
Qed.

Lemma ptr_order' (P : Type) (null : P) (eqb raw : P -> P -> bool) : (forall a b, eqb a b = true <-> a = b) -> address_order null raw ->
  strict_total (less_ptr null eqb raw) /\ strict_total (greater_ptr null eqb raw) /\
  (forall a b, greater_ptr null eqb raw a b = less_ptr null eqb raw b a) /\
  (forall a, a <> null -> less_ptr null eqb raw null a = true /\ less_ptr null eqb raw a null = false) /\
  (forall a b, a <> null -> b <> null -> less_ptr null eqb raw a b = raw a b).
Proof.
  intros He (H1 & H2 & H3). pose proof (ptr_order null eqb raw He H1 H2 H3) as (A & B & C & D). split; [exact A|]. split; [exact B|]. split; [exact C|]. split; [exact D|].
  intros a b Ha Hb. unfold less_ptr. destruct (eqb b null) eqn:Eb; [apply He in Eb; congruence|]. destruct (eqb a null) eqn:Ea; [apply He in Ea; congruence|reflexivity].
Qed.
Lemma ptr_tree_fit (P : Type) (null : P) (eqb raw : P -> P -> bool) : (forall a b, eqb a b = true <-> a = b) -> address_order null raw ->
  swo (less_ptr null eqb raw) /\ swo (greater_ptr null eqb raw) /\ forall a b, equiv (less_ptr null eqb raw) a b -> a = b.
Proof.
  intros He Ha. destruct (ptr_order' P null eqb raw He Ha) as (A & B & _). split; [apply strict_total_swo, A|]. split; [apply strict_total_swo, B|].
  intros a b [E1 E2]. destruct A as (_ & _ & A). destruct (A a b) as [H|[H|H]]; [exact H|congruence|congruence].
Qed.
Lemma val_order {V} (lt : V -> V -> bool) : strict_total lt -> strict_total (less_val lt) /\ strict_total (greater_val lt) /\ forall a b, greater_val lt a b = less_val lt b a.
Proof.
  intros (H1 & H2 & H3). unfold less_val, greater_val. split; [split; [exact H1|split; [exact H2|exact H3]]|]. split; [|reflexivity].
  split; [exact H1|]. split; [intros a b c Ha Hb; exact (H2 c b a Hb Ha)|]. intros a b. destruct (H3 a b) as [H|[H|H]]; auto.
Qed.
Lemma utils_int a b : INT_MIN <= a <= INT_MAX -> INT_MIN <= b <= INT_MAX ->
  max_val Z.gtb a b = Z.max a b /\ abs_int a = (if Z.eqb a INT_MIN then UB else Ok (Z.abs a)).
Proof. intros Ha Hb. split; [apply max_int|apply abs_ok, Ha]. Qed.
