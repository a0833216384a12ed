(** The number of vector operations heaps perform. *)
From Verif Require Import Base VectorModel VectorSpec VecProg VectorWorld VectorExtra HeapModel CostSpec.
Local Open Scope nat_scope.

(** The number of vector operations a program performs when run against
    sequences, up to its end or the call that fails. *)
Fixpoint cost {A X} (triv : bool) (p : wprog A X) (s : lworld A) : nat :=
  match p with
  | WDo o k => S (match lw_step triv o s with Ok (r, s') => cost triv (k r) s' | _ => 0 end)
  | _ => 0
  end.

Section Cost.
Context {A : Type} (triv : bool) (cmp : A -> A -> bool).
Notation sworld := (gmap nat (lvec A)).
Notation cost := (cost triv).
Notation lrun := (lrun triv).

Lemma cost_bind {X Y} (p : wprog A X) (f : X -> wprog A Y) : forall s,
  cost (wbind p f) s = cost p s + match lrun p s with Ok (x, s') => cost (f x) s' | _ => 0 end.
Proof.
  induction p as [x| | | |o k IH]; intros s; cbn; try reflexivity.
  destruct (lw_step triv o s) as [[r s']| | |]; [rewrite IH; reflexivity|reflexivity..].
Qed.
Lemma cost_le {X Y} (p : wprog A X) (f : X -> wprog A Y) s a b :
  cost p s <= a -> (forall x s', lrun p s = Ok (x, s') -> cost (f x) s' <= b) -> cost (wbind p f) s <= a + b.
Proof.
  intros Ha Hb. rewrite cost_bind. destruct (lrun p s) as [[x s']| | |] eqn:E; [|lia..]. specialize (Hb _ _ eq_refl). lia.
Qed.
(** One call. *)
Definition one {X} (p : wprog A X) : Prop := forall s, cost p s <= 1.
Lemma one_unit o : one (wunit (A := A) o).
Proof. intros s. cbn. destruct (lv_step triv o s) as [[r s']| | |]; cbn; lia. Qed.
Lemma one_val o : one (wval (A := A) o).
Proof. intros s. cbn. destruct (lv_step triv o s) as [[[] s']| | |]; cbn; lia. Qed.
Lemma one_size id : one (wsize (A := A) id).
Proof. intros s. unfold wsize. cbn [HeapCost.cost]. destruct (lw_step _ _ _) as [[[] s']| | |]; cbn; lia. Qed.
Lemma one_pushelem id src i : one (wpush_elem (A := A) id src i).
Proof. intros s. unfold wpush_elem. cbn [HeapCost.cost]. destruct (lw_step _ _ _) as [[[] s']| | |]; cbn; lia. Qed.
Lemma one_get id i : one (wget (A := A) id i).
Proof. apply one_val. Qed.
Lemma one_set id i (a : A) : one (wset id i a).
Proof. apply one_unit. Qed.

(** Programs that keep the number of elements of [id]. *)
Definition len (s : sworld) (id : nat) : nat := match s !! id with Some l => length (l_seq l) | None => 0 end.
Definition samelen (id : nat) {X} (p : wprog A X) : Prop := forall s x s', lrun p s = Ok (x, s') -> len s' id = len s id.
Lemma sl_ret id {X} (x : X) : samelen id (WRet x : wprog A X).
Proof. intros s y s' [= _ <-]. reflexivity. Qed.
Lemma sl_bind id {X Y} (p : wprog A X) (f : X -> wprog A Y) : samelen id p -> (forall x, samelen id (f x)) -> samelen id (wbind p f).
Proof.
  intros Hp Hf s y s' H. rewrite lrun_bind in H. destruct (lrun p s) as [[x s1]| | |] eqn:E; try discriminate.
  rewrite (Hf _ _ _ _ H). apply (Hp _ _ _ E).
Qed.
Lemma sl_get id k i : samelen id (wget (A := A) k i).
Proof.
  intros s x s'. unfold wget, wval. cbn [VecProg.lrun lw_step lv_step]. unfold lwith, at_index.
  destruct (s !! k) as [l|]; [|discriminate]. destruct (py_index _ _) as [j|]; [|destruct (_ <=? _)%Z; discriminate].
  destruct (nth_error _ _); [|discriminate]. intros [= _ <-]. reflexivity.
Qed.
Lemma sl_set id k i (a : A) : samelen id (wset k i a).
Proof.
  intros s x s'. unfold wset, wunit. cbn [VecProg.lrun lw_step lv_step]. unfold lwith, at_index.
  destruct (s !! k) as [l|] eqn:E; [|discriminate]. destruct (py_index _ _) as [j|]; [|destruct (_ <=? _)%Z; discriminate].
  intros [= _ <-]. unfold len. destruct (decide (k = id)) as [->|Hne]; [|rewrite lookup_insert_ne by congruence; reflexivity].
  rewrite lookup_insert, E. cbn. apply insert_length.
Qed.
Lemma sl_size id k : samelen id (wsize (A := A) k).
Proof.
  intros s x s'. unfold wsize. cbn [VecProg.lrun lw_step lv_step]. unfold lwith.
  destruct (s !! k) as [l|]; [|discriminate]. intros [= _ <-]. reflexivity.
Qed.
Lemma size_val id s n s' : lrun (wsize (A := A) id) s = Ok (n, s') -> n = len s id /\ s' = s.
Proof.
  unfold wsize. cbn [VecProg.lrun lw_step lv_step]. unfold lwith, len. destruct (s !! id) as [l|]; [|discriminate].
  intros [= <- <-]. auto.
Qed.
Lemma sl_swap id k i j : samelen id (hp_swap (A := A) k i j).
Proof. unfold hp_swap. repeat (apply sl_bind; [first [apply sl_get|apply sl_set]|intros ?]). apply sl_set. Qed.
Lemma swap_cost id i j s : cost (hp_swap (A := A) id i j) s <= 4.
Proof.
  unfold hp_swap. apply (cost_le _ _ _ 1 3); [apply one_get|]. intros a s1 _.
  apply (cost_le _ _ _ 1 2); [apply one_get|]. intros b s2 _.
  apply (cost_le _ _ _ 1 1); [apply one_set|]. intros _ s3 _. apply one_set.
Qed.

(** *** Sifting up *)
Lemma up_loop_cost id f : forall node s, cost (hp_up_loop cmp f id node) s <= 6 * Nat.log2 node.
Proof.
  induction f as [|f IH]; intros node s; cbn [hp_up_loop]; [cbn; lia|].
  destruct (Nat.ltb_spec 1 node) as [H1|H1]; [|cbn; lia].
  assert (Hl : Nat.log2 node = S (Nat.log2 (node / 2))).
  { rewrite (Nat.div_mod_eq node 2) at 1. pose proof (Nat.mod_upper_bound node 2 ltac:(lia)) as Hm.
    assert (0 < node / 2) by (apply Nat.div_str_pos; lia).
    destruct (node mod 2) as [|[|]]; [rewrite Nat.add_0_r; apply Nat.log2_double; lia|apply Nat.log2_succ_double; lia|lia]. }
  rewrite Hl. replace (6 * S (Nat.log2 (node / 2))) with (1 + (1 + (4 + 6 * Nat.log2 (node / 2)))) by lia.
  apply cost_le; [apply one_get|]. intros a s1 _. apply cost_le; [apply one_get|]. intros b s2 _.
  destruct (negb (cmp a b)); [|cbn; lia]. apply cost_le; [apply swap_cost|]. intros _ s3 _. apply IH.
Qed.
Lemma push_len id (a : A) s x s' : lrun (wunit (OPush id a)) s = Ok (x, s') -> len s' id = S (len s id).
Proof.
  unfold wunit. cbn [VecProg.lrun lw_step lv_step]. unfold lwith, len. destruct (s !! id) as [l|]; [|discriminate].
  intros [= _ <-]. rewrite lookup_insert. cbn. rewrite app_length. cbn. lia.
Qed.
Lemma push_cost id a s : cost (hp_push cmp id a) s <= 2 + 6 * Nat.log2 (len s id).
Proof.
  unfold hp_push. apply (cost_le _ _ _ 1); [apply one_unit|]. intros x s1 E1. unfold hp_up.
  apply (cost_le _ _ _ 1); [apply one_size|]. intros n s2 E2. apply size_val in E2 as [-> ->].
  rewrite (push_len _ _ _ _ _ E1). replace (S (len s id) - 1) with (len s id) by lia. apply up_loop_cost.
Qed.

(** *** Sifting down *)
(** How often k can be doubled without exceeding n. *)
Definition levels (n k : nat) : nat := Nat.log2 (n / k).
Lemma levels_double n k : 0 < k -> 2 * k <= n -> levels n k = S (levels n (2 * k)).
Proof.
  intros Hk H. unfold levels. rewrite (Nat.mul_comm 2 k), <- Nat.div_div by lia. set (q := n / k).
  assert (Hq : 2 <= q) by (apply Nat.div_le_lower_bound; lia).
  assert (0 < q / 2) by (apply Nat.div_str_pos; lia).
  rewrite (Nat.div_mod_eq q 2) at 1. pose proof (Nat.mod_upper_bound q 2 ltac:(lia)).
  destruct (q mod 2) as [|[|]]; [rewrite Nat.add_0_r; apply Nat.log2_double; lia|apply Nat.log2_succ_double; lia|lia].
Qed.
Lemma levels_anti n k k' : 0 < k -> k <= k' -> levels n k' <= levels n k.
Proof. intros H1 H2. unfold levels. apply Nat.log2_le_mono, Nat.div_le_compat_l. lia. Qed.
Lemma pick_cost id size t c s : cost (hp_pick cmp id size t c) s <= 2.
Proof.
  unfold hp_pick. destruct (c <? size); [|cbn; lia]. apply (cost_le _ _ _ 1); [apply one_get|]. intros a s1 _.
  apply (cost_le _ _ _ 1 0); [apply one_get|]. intros b s2 _. cbn. lia.
Qed.
Lemma pick_val id size t c s x s' : lrun (hp_pick cmp id size t c) s = Ok (x, s') -> x = t \/ (x = c /\ c < size).
Proof.
  unfold hp_pick. destruct (Nat.ltb_spec c size); [|intros [= <- _]; auto].
  rewrite !lrun_bind. destruct (lrun _ s) as [[a s1]| | |]; try discriminate. rewrite lrun_bind.
  destruct (lrun _ s1) as [[b s2]| | |]; try discriminate. cbn. intros [= <- _]. destruct (negb (cmp a b)); auto.
Qed.
Lemma down_loop_cost id size f : forall parent s, 0 < parent ->
  cost (hp_down_loop cmp f id size parent) s <= 4 + 8 * levels (size - 1) parent.
Proof.
  induction f as [|f IH]; intros parent s Hp; cbn [hp_down_loop]; [cbn; lia|].
  replace (4 + 8 * levels (size - 1) parent) with (2 + (2 + 8 * levels (size - 1) parent)) by lia.
  apply cost_le; [apply pick_cost|]. intros t1 s1 E1. apply pick_val in E1.
  apply cost_le; [apply pick_cost|]. intros t2 s2 E2. apply pick_val in E2.
  destruct (Nat.eqb_spec t2 parent) as [_|Hne]; [cbn; lia|].
  assert (Ht : 2 * parent <= size - 1 /\ 2 * parent <= t2) by lia.
  rewrite (levels_double (size - 1) parent) by lia.
  replace (8 * S (levels (size - 1) (2 * parent))) with (4 + (4 + 8 * levels (size - 1) (2 * parent))) by lia.
  apply cost_le; [apply swap_cost|]. intros _ s3 _. etransitivity; [apply IH; lia|].
  pose proof (levels_anti (size - 1) (2 * parent) t2 ltac:(lia) ltac:(lia)). lia.
Qed.
Lemma down_cost id k s : 0 < k -> cost (hp_down cmp id k) s <= 5 + 8 * levels (len s id - 1) k.
Proof.
  intros Hk. unfold hp_down. apply (cost_le _ _ _ 1); [apply one_size|]. intros n s1 E. apply size_val in E as [-> ->].
  apply down_loop_cost, Hk.
Qed.
Lemma sl_pick id k size t c : samelen id (hp_pick cmp k size t c).
Proof. unfold hp_pick. destruct (c <? size); [|apply sl_ret]. repeat (apply sl_bind; [apply sl_get|intros ?]). apply sl_ret. Qed.
Lemma sl_down id k node : samelen id (hp_down cmp k node).
Proof.
  unfold hp_down. apply sl_bind; [apply sl_size|]. intros n. generalize (S n). intros f. revert node.
  induction f as [|f IH]; intros node; cbn [hp_down_loop]; [intros s x s' [=]|].
  apply sl_bind; [apply sl_pick|]. intros t1. apply sl_bind; [apply sl_pick|]. intros t2.
  destruct (t2 =? node); [apply sl_ret|]. apply sl_bind; [apply sl_swap|]. intros _. apply IH.
Qed.
Lemma levels_1 n : levels n 1 = Nat.log2 n.
Proof. unfold levels. rewrite Nat.div_1_r. reflexivity. Qed.
Lemma pop_len id s x s' : lrun (wunit (A := A) (OPop id)) s = Ok (x, s') -> len s' id = len s id - 1.
Proof.
  unfold wunit. cbn [VecProg.lrun lw_step lv_step]. unfold lwith, len. destruct (s !! id) as [l|]; [|discriminate].
  destruct (l_seq l) as [|a q] eqn:E; [discriminate|]. remember (removelast (a :: q)) as r eqn:Er.
  intros [= _ <-]. rewrite lookup_insert. cbn [l_seq]. subst r. rewrite removelast_firstn_len, firstn_length. lia.
Qed.
Lemma pop_cost id s : cost (hp_pop cmp id) s <= 8 + 8 * Nat.log2 (len s id - 2).
Proof.
  unfold hp_pop. apply (cost_le _ _ _ 1); [apply one_val|]. intros b s1 E1.
  assert (L1 : len s1 id = len s id).
  { revert E1. unfold wval. cbn [VecProg.lrun lw_step lv_step]. unfold lwith, len. destruct (s !! id) as [l|] eqn:E; [|discriminate].
    destruct (nth_error _ _); [|discriminate]. intros [= _ <-]. rewrite E. reflexivity. }
  apply (cost_le _ _ _ 1); [apply one_set|]. intros x2 s2 E2. pose proof (sl_set id _ _ _ _ _ _ E2) as L2.
  apply (cost_le _ _ _ 1); [apply one_unit|]. intros x3 s3 E3. pose proof (pop_len _ _ _ _ E3) as L3.
  etransitivity; [apply down_cost; lia|]. rewrite levels_1.
  replace (len s3 id - 1) with (len s id - 2) by lia. lia.
Qed.
Lemma sl_pop id s x s' : lrun (hp_pop cmp id) s = Ok (x, s') -> len s' id = len s id - 1.
Proof.
  unfold hp_pop. rewrite lrun_bind. destruct (lrun (wval (OBack id)) s) as [[b s1]| | |] eqn:E1; try discriminate.
  assert (L1 : len s1 id = len s id).
  { revert E1. unfold wval. cbn [VecProg.lrun lw_step lv_step]. unfold lwith, len. destruct (s !! id) as [l|] eqn:E; [|discriminate].
    destruct (nth_error _ _); [|discriminate]. intros [= _ <-]. rewrite E. reflexivity. }
  rewrite lrun_bind. destruct (lrun (wset id 1 b) s1) as [[x2 s2]| | |] eqn:E2; try discriminate.
  pose proof (sl_set id _ _ _ _ _ _ E2) as L2.
  rewrite lrun_bind. destruct (lrun (wunit (OPop id)) s2) as [[x3 s3]| | |] eqn:E3; try discriminate.
  pose proof (pop_len _ _ _ _ E3) as L3. intros H. apply sl_down with (id := id) in H. lia.
Qed.

(** *** Heapify: the levels below all positions add up to at most n *)
Fixpoint sum (f : nat -> nat) (k : nat) : nat := match k with O => 0 | S j => f k + sum f j end.
Lemma sum_le f g k : (forall i, 1 <= i <= k -> f i <= g i) -> sum f k <= sum g k.
Proof. intros H. induction k as [|k IH]; cbn; [lia|]. pose proof (H (S k) ltac:(lia)). specialize (IH ltac:(intros; apply H; lia)). lia. Qed.
Lemma sum_const f k c : (forall i, 1 <= i <= k -> f i = c) -> sum f k = c * k.
Proof. intros H. induction k as [|k IH]; cbn; [lia|]. rewrite (H (S k)) by lia. rewrite IH by (intros; apply H; lia). lia. Qed.
Lemma sum_plus f g k : sum (fun i => f i + g i) k = sum f k + sum g k.
Proof. induction k as [|k IH]; cbn; lia. Qed.
Lemma levels_far n k : n < 2 * k -> levels n k = 0.
Proof.
  intros H. unfold levels. assert (Hq : n / k < 2) by (apply Nat.div_lt_upper_bound; lia).
  destruct (n / k) as [|[|]]; [reflexivity|reflexivity|lia].
Qed.
Lemma levels_half n k : 0 < k -> levels n (2 * k) = levels (n / 2) k.
Proof. intros H. unfold levels. rewrite <- Nat.div_div by lia. reflexivity. Qed.
Lemma sum_far n m k : m <= k -> (forall i, m < i -> levels n i = 0) -> sum (levels n) k = sum (levels n) m.
Proof.
  intros Hle Hf. induction Hle as [|k Hle IH]; [reflexivity|]. cbn [sum]. rewrite IH, Hf by lia. reflexivity.
Qed.
Lemma sum_levels : forall n, sum (levels n) n <= n.
Proof.
  induction n as [n IH] using lt_wf_ind. destruct (decide (n <= 1)) as [H|H].
  { destruct n as [|[|]]; [cbn; lia|vm_compute; lia|lia]. }
  set (h := n / 2). assert (Hh : h < n) by (apply Nat.div_lt; lia). pose proof (Nat.mul_div_le n 2 ltac:(lia)) as Hle. fold h in Hle.
  pose proof (Nat.mul_succ_div_gt n 2 ltac:(lia)) as Hgt. fold h in Hgt.
  rewrite (sum_far n h n) by (try lia; intros i Hi; apply levels_far; lia).
  assert (E : sum (levels n) h = sum (fun i => 1 + levels h i) h).
  { assert (G : forall k, k <= h -> sum (levels n) k = sum (fun i => 1 + levels h i) k); [|apply G; lia].
    induction k as [|k IHk]; intros Hk; [reflexivity|]. cbn [sum]. rewrite IHk by lia.
    rewrite (levels_double n (S k)) by lia. rewrite levels_half by lia. reflexivity. }
  rewrite E, sum_plus. specialize (IH h Hh).
  rewrite (sum_const (fun _ => 1) h 1) by auto. lia.
Qed.
Lemma heapify_cost id k : forall s m, len s id - 1 = m -> cost (hp_heapify cmp id k) s <= 5 * k + 8 * sum (levels m) k.
Proof.
  induction k as [|k IH]; intros s m Hm; cbn [hp_heapify]; [cbn; lia|].
  etransitivity; [apply (cost_le _ _ _ (5 + 8 * levels m (S k)) (5 * k + 8 * sum (levels m) k))|cbn [sum]; lia].
  - rewrite <- Hm. apply down_cost. lia.
  - intros x1 s1 E1. apply IH. rewrite (sl_down id _ _ _ _ _ E1). exact Hm.
Qed.
Lemma sum_mono f j k : j <= k -> sum f j <= sum f k.
Proof. induction 1; cbn; lia. Qed.

(** *** Building and sorting *)
Lemma fill_len id (obj : A) s x s' : lrun (hp_new id obj) s = Ok (x, s') -> len s' id = 1.
Proof.
  unfold hp_new, wunit. cbn [VecProg.lrun lw_step lv_step Nat.eqb]. unfold lnew, len. destruct (s !! id); [discriminate|].
  intros [= _ <-]. rewrite lookup_insert. reflexivity.
Qed.
Lemma resize_len id n s x s' : lrun (wunit (A := A) (OResize id n)) s = Ok (x, s') -> len s' id <= len s id.
Proof.
  unfold wunit. cbn [VecProg.lrun lw_step lv_step]. unfold lwith, len. destruct (s !! id) as [l|]; [|discriminate].
  intros [= _ <-]. rewrite lookup_insert. cbn. rewrite firstn_length. lia.
Qed.
Lemma pushelem_len id src i s x s' : lrun (wpush_elem (A := A) id src i) s = Ok (x, s') -> len s' id = S (len s id).
Proof.
  unfold wpush_elem. cbn [VecProg.lrun lw_step]. unfold lwith, at_index, len. destruct (s !! id) as [l|]; [|discriminate].
  destruct (s !! src) as [u|]; [|discriminate]. destruct (py_index _ _) as [j|]; [|destruct (_ <=? _)%Z; discriminate].
  destruct (nth_error _ _); [|discriminate]. destruct (_ && _); [discriminate|].
  intros [= _ <-]. rewrite lookup_insert. cbn. rewrite app_length. cbn. lia.
Qed.
Lemma hfill_cost id src n : forall i s, cost (hp_fill (A := A) id src i n) s <= n.
Proof.
  induction n as [|n IH]; intros i s; cbn [hp_fill]; [cbn; lia|].
  apply (cost_le _ _ _ 1 n); [apply one_pushelem|]. intros _ s1 _. apply IH.
Qed.
Lemma hfill_len id src n : forall i s x s', lrun (hp_fill (A := A) id src i n) s = Ok (x, s') -> len s' id = n + len s id.
Proof.
  induction n as [|n IH]; intros i s x s'; cbn [hp_fill]; [intros [= _ <-]; reflexivity|].
  rewrite lrun_bind. destruct (lrun _ s) as [[y s1]| | |] eqn:E; try discriminate.
  intros H. rewrite (IH _ _ _ _ H), (pushelem_len _ _ _ _ _ _ E). lia.
Qed.
Lemma range_cost id obj src b n s : cost (hp_range cmp id obj src b n) s <= 3 + 12 * n.
Proof.
  unfold hp_range. apply (cost_le _ _ _ 1 (2 + 12 * n)); [apply one_unit|]. intros x1 s1 E1. apply fill_len in E1.
  apply (cost_le _ _ _ 1 (1 + 12 * n)); [apply one_unit|]. intros x2 s2 E2. apply resize_len in E2.
  etransitivity; [apply (cost_le _ _ _ n (1 + 11 * n))|lia].
  { apply hfill_cost. }
  intros x3 s3 E3. apply hfill_len in E3.
  apply (cost_le _ _ _ 1 (11 * n)); [apply one_size|]. intros m s4 E4. apply size_val in E4 as [-> ->].
  assert (Hm : len s3 id - 1 <= n) by lia. etransitivity; [apply heapify_cost; reflexivity|].
  set (m := len s3 id - 1) in *. pose proof (sum_levels m) as H1.
  pose proof (Nat.mul_div_le m 2 ltac:(lia)) as H2. pose proof (sum_mono (levels m) (m / 2) m ltac:(lia)). lia.
Qed.
Lemma back_cost id dst n : forall h i s, cost (hp_copy_back (A := A) id h dst i n) s <= 2 * n.
Proof.
  induction n as [|n IH]; intros h i s; cbn [hp_copy_back]; [cbn; lia|].
  replace (2 * S n) with (1 + (1 + 2 * n)) by lia.
  apply cost_le; [apply one_get|]. intros v s1 _. apply cost_le; [apply one_set|]. intros _ s2 _. apply IH.
Qed.
Lemma build_cost id obj src b n s : cost (hp_build cmp id obj src b n) s <= 3 + 14 * n.
Proof.
  unfold hp_build. etransitivity; [apply (cost_le _ _ _ (3 + 12 * n) (2 * n))|lia]; [apply range_cost|]. intros _ s1 _. apply back_cost.
Qed.
Lemma sl_heapify id k : samelen id (hp_heapify cmp id k).
Proof. induction k as [|k IH]; cbn [hp_heapify]; [apply sl_ret|]. apply sl_bind; [apply sl_down|]. intros _. exact IH. Qed.
Lemma range_len id obj src b n s x s' : lrun (hp_range cmp id obj src b n) s = Ok (x, s') -> len s' id <= n + 1.
Proof.
  unfold hp_range. rewrite lrun_bind. destruct (lrun _ s) as [[x1 s1]| | |] eqn:E1; try discriminate. apply fill_len in E1.
  rewrite lrun_bind. destruct (lrun _ s1) as [[x2 s2]| | |] eqn:E2; try discriminate. apply resize_len in E2.
  rewrite lrun_bind. destruct (lrun _ s2) as [[x3 s3]| | |] eqn:E3; try discriminate. apply hfill_len in E3.
  rewrite lrun_bind. destruct (lrun _ s3) as [[x4 s4]| | |] eqn:E4; try discriminate. apply size_val in E4 as [-> ->].
  intros H. apply sl_heapify in H. lia.
Qed.
Lemma sort_loop_cost id src m n : forall i s, id <> src -> len s id <= m + 1 ->
  cost (hp_sort_loop cmp id src i n) s <= n * (10 + 8 * Nat.log2 m).
Proof.
  induction n as [|n IH]; intros i s Hne Hm; cbn [hp_sort_loop]; [cbn; lia|].
  replace (S n * (10 + 8 * Nat.log2 m)) with (1 + (1 + ((8 + 8 * Nat.log2 m) + n * (10 + 8 * Nat.log2 m)))) by lia.
  apply cost_le; [apply one_get|]. intros v s1 E1. pose proof (sl_get id _ _ _ _ _ E1) as L1.
  apply cost_le; [apply one_set|]. intros x2 s2 E2. pose proof (sl_set id _ _ _ _ _ _ E2) as L2.
  apply cost_le.
  - etransitivity; [apply pop_cost|]. pose proof (Nat.log2_le_mono (len s2 id - 2) m ltac:(lia)). lia.
  - intros x3 s3 E3. apply sl_pop in E3. apply IH; [exact Hne|lia].
Qed.
Lemma sort_cost id obj src b n s : id <> src -> cost (hp_sort cmp id obj src b n) s <= 4 + n * (22 + 8 * Nat.log2 n).
Proof.
  intros Hne. unfold hp_sort. etransitivity; [apply (cost_le _ _ _ (3 + 12 * n) (n * (10 + 8 * Nat.log2 n) + 1))|lia].
  - apply range_cost.
  - intros x1 s1 E1. apply range_len in E1. apply cost_le; [apply sort_loop_cost; [exact Hne|exact E1]|]. intros _ s2 _. apply one_unit.
Qed.

(** *** The same counts for runs over memory *)
Lemma calls_cost {X} (p : wprog A X) : forall w s, winv w s -> calls triv p w = cost p s.
Proof.
  induction p as [x| | | |o k IH]; intros w s H; cbn; try reflexivity. f_equal.
  pose proof (w_step_sim triv o w s H) as Hs. unfold sim_res in Hs. destruct (lw_step triv o s) as [[r s1]| | |].
  - destruct Hs as (w1 & -> & H1). apply IH, H1.
  - rewrite Hs. reflexivity.
  - rewrite Hs. reflexivity.
  - rewrite Hs. reflexivity.
Qed.
Lemma winv_len (w : world A) s id v l : winv w s -> holds w id v l -> len s id = length l.
Proof. intros H Hh. pose proof (view_holds _ _ _ _ Hh) as E. rewrite (winv_view _ _ H) in E. unfold len. rewrite E. reflexivity. Qed.

Lemma push_calls (w : world A) id v g l a : reachable triv w -> holds w id v (g :: l) ->
  calls triv (hp_push cmp id a) w <= 2 + 6 * Nat.log2 (length l + 1).
Proof.
  intros Hre Hh. destruct (reachable_winv triv w Hre) as [s H]. rewrite (calls_cost _ _ _ H).
  pose proof (push_cost id a s) as Hc. rewrite (winv_len _ _ _ _ _ H Hh) in Hc.
  cbn [length] in Hc. rewrite Nat.add_1_r. exact Hc.
Qed.
Lemma pop_calls (w : world A) id v g l : reachable triv w -> holds w id v (g :: l) ->
  calls triv (hp_pop cmp id) w <= 8 + 8 * Nat.log2 (length l).
Proof.
  intros Hre Hh. destruct (reachable_winv triv w Hre) as [s H]. rewrite (calls_cost _ _ _ H).
  pose proof (pop_cost id s) as Hc. rewrite (winv_len _ _ _ _ _ H Hh) in Hc. etransitivity; [exact Hc|].
  pose proof (Nat.log2_le_mono (length (g :: l) - 2) (length l) ltac:(cbn; lia)). lia.
Qed.
Lemma range_calls (w : world A) id obj src b n : reachable triv w ->
  calls triv (hp_range cmp id obj src b n) w <= 3 + 12 * n.
Proof. intros Hre. destruct (reachable_winv triv w Hre) as [s H]. rewrite (calls_cost _ _ _ H). apply range_cost. Qed.
Lemma build_calls (w : world A) id obj src b n : reachable triv w ->
  calls triv (hp_build cmp id obj src b n) w <= 3 + 14 * n.
Proof. intros Hre. destruct (reachable_winv triv w Hre) as [s H]. rewrite (calls_cost _ _ _ H). apply build_cost. Qed.
Lemma sort_calls (w : world A) id obj src b n : reachable triv w -> id <> src ->
  calls triv (hp_sort cmp id obj src b n) w <= 4 + n * (22 + 8 * Nat.log2 n).
Proof. intros Hre Hne. destruct (reachable_winv triv w Hre) as [s H]. rewrite (calls_cost _ _ _ H). apply sort_cost, Hne. Qed.
End Cost.
