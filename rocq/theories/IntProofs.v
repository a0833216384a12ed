(** Machine integers in indices, loops and heaps. *)
From stdpp Require Import list_numbers.
From Verif Require Import Base VectorModel VectorSpec VecProg VectorProofs VectorWorld VectorExtra LRun Adapter ArithModel HeapModel HeapSpec HeapProofs HeapCost IntModel IntSpec.
Local Open Scope Z_scope.
Notation zn := Z.of_nat.

(** ** Conversions *)
Lemma to_int_id z : INT_MIN <= z <= INT_MAX -> to_int z = z.
Proof. unfold INT_MIN, INT_MAX, to_int. intros H. rewrite Z.mod_small; lia. Qed.
Lemma to_size_id z : 0 <= z < 2 ^ 64 -> to_size z = z.
Proof. unfold to_size. intros H. apply Z.mod_small. lia. Qed.
Lemma to_size_neg z : - 2 ^ 64 <= z < 0 -> to_size z = z + 2 ^ 64.
Proof.
  intros H. unfold to_size. symmetry. apply Z.mod_unique with (q := -1); lia.
Qed.
Lemma to_int_size z : to_int (to_size z) = to_int z.
Proof.
  unfold to_int, to_size. f_equal. rewrite (Z.mod_eq z (2 ^ 64)) by lia.
  replace (z - 2 ^ 64 * (z / 2 ^ 64) + 2 ^ 31) with (z + 2 ^ 31 + (- 2 ^ 32 * (z / 2 ^ 64)) * 2 ^ 32) by lia.
  apply Z_mod_plus_full.
Qed.
Lemma to_int_add n i : to_int (to_size (n + to_size i)) = to_int (n + i).
Proof.
  rewrite to_int_size. unfold to_int, to_size. f_equal. rewrite (Z.mod_eq i (2 ^ 64)) by lia.
  replace (n + (i - 2 ^ 64 * (i / 2 ^ 64)) + 2 ^ 31) with (n + i + 2 ^ 31 + (- 2 ^ 32 * (i / 2 ^ 64)) * 2 ^ 32) by lia.
  apply Z_mod_plus_full.
Qed.
Lemma to_int_high z : 2 ^ 31 <= z < 2 ^ 32 + 2 ^ 31 -> to_int z = z - 2 ^ 32.
Proof. intros H. unfold to_int. rewrite <- (Z.mod_unique (z + 2 ^ 31) (2 ^ 32) 1 (z + 2 ^ 31 - 2 ^ 32)); lia. Qed.

(** ** operator[] *)
Lemma int_index_spec n i : zn n <= INT_MAX -> INT_MIN <= i <= INT_MAX ->
  int_index (zn n) i =
    match py_index n i with
    | Some k => Ok (zn k)
    | None => if zn n <=? i then Abort else Ok (zn n + i)
    end.
Proof.
  intros Hn Hi. unfold int_index, py_index. rewrite to_int_add, (to_int_id (zn n)) by (unfold INT_MIN in *; lia).
  unfold INT_MIN, INT_MAX in *.
  destruct (Z.ltb_spec i 0).
  - rewrite to_int_id by (unfold INT_MIN, INT_MAX in *; lia).
    destruct (Z.leb_spec 0 i); [lia|]. destruct (Z.ltb_spec (zn n + i) (zn n)); [|lia].
    destruct (Z.leb_spec (- zn n) i); [rewrite Z2Nat.id by lia; reflexivity|].
    destruct (Z.leb_spec (zn n) i); [lia|reflexivity].
  - destruct (Z.leb_spec 0 i); [|lia]. destruct (Z.ltb_spec i (zn n)).
    + rewrite Z2Nat.id by lia. reflexivity.
    + destruct (Z.leb_spec (zn n) i); [reflexivity|lia].
Qed.
Lemma int_index_big n i : INT_MAX < n < 2 ^ 32 -> INT_MIN <= i <= INT_MAX ->
  int_index n i = Abort \/ (i < 0 /\ exists j, int_index n i = Ok j /\ j < 0).
Proof.
  intros Hn Hi. unfold int_index. rewrite to_int_add. unfold INT_MIN, INT_MAX in *.
  rewrite (to_int_high n) by lia. destruct (Z.ltb_spec i 0) as [Hneg|Hneg].
  - destruct (Z.ltb_spec (to_int (n + i)) (n - 2 ^ 32)); [|auto]. right. split; [exact Hneg|]. eexists. split; [reflexivity|]. lia.
  - left. destruct (Z.ltb_spec i (n - 2 ^ 32)); [lia|reflexivity].
Qed.

(** ** Counting loops *)
Lemma int_for_ok n : n <= INT_MAX -> forall fuel i, 0 <= i <= INT_MAX -> n - i <= zn fuel ->
  int_for fuel i n = Ok (seqZ i (n - i)).
Proof.
  intros Hn. unfold INT_MAX in *. induction fuel as [|fuel IH]; intros i Hi Hf; cbn [int_for]; rewrite to_size_id by lia;
    (destruct (Z.ltb_spec i n); [|rewrite seqZ_nil by lia; reflexivity]); [lia|].
  unfold INT_MAX. destruct (Z.eqb_spec i (2 ^ 31 - 1)); [lia|]. rewrite IH by lia.
  rewrite (seqZ_cons i) by lia. do 3 f_equal; lia.
Qed.
Lemma int_for_overflow n : INT_MAX < n -> forall fuel i, 0 <= i <= INT_MAX -> INT_MAX - i < zn fuel ->
  int_for fuel i n = UB.
Proof.
  intros Hn. unfold INT_MAX in *. induction fuel as [|fuel IH]; intros i Hi Hf; [lia|]. cbn [int_for]. rewrite to_size_id by lia.
  destruct (Z.ltb_spec i n); [|lia].
  unfold INT_MAX. destruct (Z.eqb_spec i (2 ^ 31 - 1)); [reflexivity|]. rewrite IH by lia. reflexivity.
Qed.
Lemma int_for_neg n i fuel : INT_MIN <= i < 0 -> n < 2 ^ 63 -> int_for fuel i n = Ok [].
Proof.
  intros Hi Hn. unfold INT_MIN in Hi. destruct fuel; cbn [int_for]; rewrite to_size_neg by lia;
    (destruct (Z.ltb_spec (i + 2 ^ 64) n); [lia|reflexivity]).
Qed.

(** ** Heaps *)
Section Heap.
Context {A : Type} (triv : bool) (cmp : A -> A -> bool).
Notation sworld := (gmap nat (lvec A)).
Notation lrun := (lrun triv).
Implicit Types (s : sworld).

Lemma eq_bind {X Y} (p q : wprog A X) (f g : X -> wprog A Y) s :
  lrun p s = lrun q s -> (forall x s', lrun q s = Ok (x, s') -> lrun (f x) s' = lrun (g x) s') ->
  lrun (wbind p f) s = lrun (wbind q g) s.
Proof. intros H1 H2. rewrite !lrun_bind, H1. destruct (lrun q s) as [[x s']| | |]; auto. Qed.
Lemma eq_bind_z {Y} (p : wprog A Z) (q : wprog A nat) (f : Z -> wprog A Y) (g : nat -> wprog A Y) s :
  lrun p s = lrun (wbind q (fun t => WRet (zn t))) s ->
  (forall x s', lrun q s = Ok (x, s') -> lrun (f (zn x)) s' = lrun (g x) s') ->
  lrun (wbind p f) s = lrun (wbind q g) s.
Proof. intros H1 H2. rewrite !lrun_bind, H1, lrun_bind. destruct (lrun q s) as [[x s']| | |]; cbn; auto. Qed.
Lemma len_get s id l : s !! id = Some l -> len s id = length (l_seq l).
Proof. unfold len. intros ->. reflexivity. Qed.

(** mHeap_d[i]. *)
Lemma moff_eq {Y} id i (f : Z -> wprog A Y) s : zn (len s id) <= INT_MAX -> zn i <= INT_MAX ->
  lrun (wbind (moff id (zn i)) f) s =
    match s !! id with
    | None => UB
    | Some l => if (i <? length (l_seq l))%nat then lrun (f (zn i)) s else Abort
    end.
Proof.
  intros Hn Hi. unfold moff. rewrite lrun_bind, lrun_bind. unfold wsize at 1. cbn [VecProg.lrun lw_step lv_step]. unfold lwith.
  destruct (s !! id) as [l|] eqn:E; [|reflexivity]. rewrite (len_get _ _ _ E) in Hn. cbn [VecProg.lrun].
  rewrite int_index_spec by (unfold INT_MIN; lia). unfold py_index.
  destruct (Z.leb_spec 0 (zn i)); [|lia].
  destruct (Z.ltb_spec (zn i) (zn (length (l_seq l)))); destruct (Nat.ltb_spec i (length (l_seq l))); try lia.
  - rewrite Nat2Z.id. destruct (Z.ltb_spec (zn i) 0); [lia|]. reflexivity.
  - destruct (Z.leb_spec (zn (length (l_seq l))) (zn i)); [reflexivity|lia].
Qed.
Lemma mget_eq id i s : zn (len s id) <= INT_MAX -> zn i <= INT_MAX -> lrun (mget id (zn i)) s = lrun (wget id (zn i)) s.
Proof.
  intros Hn Hi. unfold mget. rewrite moff_eq by assumption. destruct (s !! id) as [[c cap]|] eqn:E.
  - cbn [l_seq]. destruct (Nat.ltb_spec i (length c)); [reflexivity|]. symmetry. eapply wget_abort; eauto.
  - unfold wget, wval. cbn [VecProg.lrun lw_step lv_step]. unfold lwith. rewrite E. reflexivity.
Qed.
Lemma mset_eq id i (a : A) s : zn (len s id) <= INT_MAX -> zn i <= INT_MAX -> lrun (mset id (zn i) a) s = lrun (wset id (zn i) a) s.
Proof.
  intros Hn Hi. unfold mset. rewrite moff_eq by assumption. destruct (s !! id) as [[c cap]|] eqn:E.
  - cbn [l_seq]. destruct (Nat.ltb_spec i (length c)); [reflexivity|]. symmetry. eapply wset_abort; eauto.
  - unfold wset, wunit. cbn [VecProg.lrun lw_step lv_step]. unfold lwith. rewrite E. reflexivity.
Qed.

Notation small s id := (zn (len s id) <= 2 ^ 30).
Lemma small_int s id : small s id -> zn (len s id) <= INT_MAX.
Proof. unfold INT_MAX. lia. Qed.
Hint Resolve small_int : core.

Lemma swap_eq id i j s : small s id -> zn i <= INT_MAX -> zn j <= INT_MAX ->
  lrun (mi_swap id (zn i) (zn j)) s = lrun (hp_swap id i j) s.
Proof.
  intros H Hi Hj. unfold mi_swap, hp_swap.
  apply eq_bind; [apply mget_eq; auto|]. intros a s1 E1. apply (sl_get triv id) in E1.
  apply eq_bind; [apply mget_eq; [rewrite E1|]; auto|]. intros b s2 E2. apply (sl_get triv id) in E2.
  apply eq_bind; [apply mset_eq; [rewrite E2, E1|]; auto|]. intros [] s3 E3. apply (sl_set triv id) in E3.
  apply mset_eq; [rewrite E3, E2, E1|]; auto.
Qed.
Lemma zn_div2 n : zn (n / 2) = zn n / 2.
Proof. apply Nat2Z.inj_div. Qed.
Lemma up_loop_eq id f : forall node s, small s id -> zn node <= INT_MAX ->
  lrun (mi_up_loop cmp f id (zn node)) s = lrun (hp_up_loop cmp f id node) s.
Proof.
  induction f as [|f IH]; intros node s H Hn; [reflexivity|]. cbn [mi_up_loop hp_up_loop].
  destruct (Z.ltb_spec 1 (zn node)); destruct (Nat.ltb_spec 1 node); try lia; [|reflexivity]. cbv zeta.
  assert (Hd : Z.quot (zn node) 2 = zn (node / 2)) by (rewrite zn_div2; apply Z.quot_div_nonneg; lia).
  rewrite Hd. pose proof (Nat.div_le_upper_bound node 2 node ltac:(lia) ltac:(lia)) as Hle.
  apply eq_bind; [apply mget_eq; [auto|lia]|]. intros a s1 E1. apply (sl_get triv id) in E1.
  apply eq_bind; [apply mget_eq; [rewrite E1|]; auto|]. intros b s2 E2. apply (sl_get triv id) in E2.
  destruct (negb (cmp a b)); [|reflexivity].
  apply eq_bind; [apply swap_eq; [rewrite E2, E1; assumption|lia..]|]. intros [] s3 E3. apply (sl_swap triv id) in E3.
  apply IH; [rewrite E3, E2, E1; assumption|lia].
Qed.
Lemma up_eq id s : (1 <= len s id)%nat -> small s id -> lrun (mi_up cmp id) s = lrun (hp_up cmp id) s.
Proof.
  intros H1 H. unfold mi_up, hp_up. apply eq_bind; [reflexivity|]. intros n s1 E. apply size_val in E as [-> ->].
  replace (zn (len s id) - 1) with (zn (len s id - 1)) by lia.
  rewrite to_size_id, to_int_id by (unfold INT_MIN, INT_MAX; lia). apply up_loop_eq; [assumption|unfold INT_MAX; lia].
Qed.
Lemma pick_eq id size t c s : small s id -> zn t <= INT_MAX -> zn c <= INT_MAX ->
  lrun (mi_pick cmp id (zn size) (zn t) (zn c)) s = lrun (wbind (hp_pick cmp id size t c) (fun t => WRet (zn t))) s.
Proof.
  intros H Ht Hc. unfold mi_pick, hp_pick.
  destruct (Z.ltb_spec (zn c) (zn size)); destruct (Nat.ltb_spec c size); try lia; [|reflexivity].
  rewrite !lrun_bind, mget_eq by auto. destruct (lrun (wget id (zn t)) s) as [[a s1]| | |] eqn:E1; try reflexivity.
  apply (sl_get triv id) in E1. rewrite !lrun_bind, mget_eq by (try rewrite E1; auto).
  destruct (lrun (wget id (zn c)) s1) as [[b s2]| | |] eqn:E2; try reflexivity. cbn. destruct (negb (cmp a b)); reflexivity.
Qed.
Lemma wint_ok z : INT_MIN <= z <= INT_MAX -> wint (A := A) z = WRet z.
Proof. intros H. unfold wint. destruct (Z.leb_spec INT_MIN z), (Z.leb_spec z INT_MAX); try lia. reflexivity. Qed.
Lemma wint_over z : INT_MAX < z -> wint (A := A) z = WUB.
Proof. intros H. unfold wint. destruct (Z.leb_spec z INT_MAX); [lia|]. rewrite andb_false_r. reflexivity. Qed.
Lemma down_loop_eq id size f : zn size <= 2 ^ 30 -> forall parent s, small s id -> zn parent < 2 ^ 30 ->
  lrun (mi_down_loop cmp f id (zn size) (zn parent)) s = lrun (hp_down_loop cmp f id size parent) s.
Proof.
  intros Hs. induction f as [|f IH]; intros parent s H Hp; [reflexivity|]. cbn [mi_down_loop hp_down_loop].
  rewrite !wint_ok by (unfold INT_MIN, INT_MAX; lia). cbn [wbind]. rewrite wint_ok by (unfold INT_MIN, INT_MAX; lia). cbn [wbind].
  cbv zeta. replace (2 * zn parent) with (zn (2 * parent)) by lia. replace (zn (2 * parent) + 1) with (zn (2 * parent + 1)) by lia.
  apply eq_bind_z; [apply pick_eq; unfold INT_MAX; [assumption|lia..]|]. intros t1 s1 E1.
  pose proof (pick_val _ _ _ _ _ _ _ _ _ E1) as V1. apply (sl_pick triv cmp id) in E1.
  apply eq_bind_z; [apply pick_eq; unfold INT_MAX; [rewrite E1; assumption|lia..]|]. intros t2 s2 E2.
  pose proof (pick_val _ _ _ _ _ _ _ _ _ E2) as V2. apply (sl_pick triv cmp id) in E2.
  destruct (Z.eqb_spec (zn t2) (zn parent)); destruct (Nat.eqb_spec t2 parent); try lia; [reflexivity|].
  apply eq_bind; [apply swap_eq; unfold INT_MAX; [rewrite E2, E1; assumption|lia..]|]. intros [] s3 E3. apply (sl_swap triv id) in E3.
  apply IH; [rewrite E3, E2, E1; assumption|lia].
Qed.
Lemma down_eq id node s : small s id -> zn node < 2 ^ 30 -> lrun (mi_down cmp id (zn node)) s = lrun (hp_down cmp id node) s.
Proof.
  intros H Hn. unfold mi_down, hp_down. apply eq_bind; [reflexivity|]. intros n s1 E. apply size_val in E as [-> ->].
  rewrite to_int_id by (unfold INT_MIN, INT_MAX; lia). apply down_loop_eq; assumption.
Qed.
Lemma push_eq id a s : zn (len s id) < 2 ^ 30 -> lrun (mi_push cmp id a) s = lrun (hp_push cmp id a) s.
Proof.
  intros H. unfold mi_push, hp_push. apply eq_bind; [reflexivity|]. intros x s1 E. apply push_len in E. apply up_eq; lia.
Qed.
Lemma back_len id s x s' : lrun (wval (OBack id)) s = Ok (x, s') -> s' = s.
Proof.
  unfold wval. cbn [VecProg.lrun lw_step lv_step]. unfold lwith. destruct (s !! id) as [l|] eqn:E; [|discriminate].
  destruct (nth_error _ _); [|discriminate]. intros [= _ <-]. reflexivity.
Qed.
Lemma pop_eq id s : small s id -> lrun (mi_pop cmp id) s = lrun (hp_pop cmp id) s.
Proof.
  intros H. unfold mi_pop, hp_pop. apply eq_bind; [reflexivity|]. intros b s1 E1. apply back_len in E1 as ->.
  apply eq_bind; [apply (mset_eq id 1); [auto|unfold INT_MAX; lia]|]. intros [] s2 E2. apply (sl_set triv id) in E2.
  apply eq_bind; [reflexivity|]. intros [] s3 E3. apply pop_len in E3. apply (down_eq id 1); lia.
Qed.
Lemma top_eq id s : small s id -> lrun (mi_top id) s = lrun (hp_top id) s.
Proof. intros H. apply (mget_eq id 1); [auto|unfold INT_MAX; lia]. Qed.
Lemma heapify_eq id k : forall f s, (k <= f)%nat -> small s id -> zn k < 2 ^ 30 ->
  lrun (mi_heapify cmp f id (zn k)) s = lrun (hp_heapify cmp id k) s.
Proof.
  induction k as [|k IH]; intros f s Hf H Hk.
  { destruct f; reflexivity. }
  destruct f as [|f]; [lia|]. cbn [mi_heapify hp_heapify]. destruct (Z.leb_spec 1 (zn (S k))); [|lia].
  apply eq_bind; [apply down_eq; assumption|]. intros [] s1 E1. apply (sl_down triv cmp id) in E1.
  rewrite wint_ok by (unfold INT_MIN, INT_MAX; lia). cbn [wbind]. replace (zn (S k) - 1) with (zn k) by lia.
  apply IH; [lia|rewrite E1; assumption|lia].
Qed.
Lemma range_eq id obj src b n s : zn n < 2 ^ 30 ->
  lrun (mi_range cmp id obj src b n) s = lrun (hp_range cmp id obj src b n) s.
Proof.
  intros Hn. unfold mi_range, hp_range.
  apply eq_bind; [reflexivity|]. intros [] s1 E1. apply fill_len in E1.
  apply eq_bind; [reflexivity|]. intros [] s2 E2. pose proof (resize_len _ _ _ _ _ _ E2) as L2.
  apply eq_bind; [reflexivity|]. intros [] s3 E3. apply hfill_len in E3.
  apply eq_bind; [reflexivity|]. intros m s4 E4. apply size_val in E4 as [-> ->].
  assert (Hl : (len s3 id = 0 \/ 1 <= len s3 id)%nat) by lia.
  assert (Hz : to_int (to_size (zn (len s3 id) - 1) / 2) = zn ((len s3 id - 1) / 2)).
  { destruct Hl as [Hl|Hl].
    - exfalso. clear - E2 E1 Hl E3. revert E2 E1. unfold wunit. cbn [VecProg.lrun lw_step lv_step]. unfold lwith, len in *.
      destruct (s1 !! id) as [l|]; [|discriminate]. intros [= <-]. rewrite lookup_insert in E3. cbn [l_seq] in E3.
      rewrite firstn_length in E3. lia.
    - replace (zn (len s3 id) - 1) with (zn (len s3 id - 1)) by lia. rewrite to_size_id by lia.
      rewrite <- zn_div2. apply to_int_id. pose proof (Nat.div_le_upper_bound (len s3 id - 1) 2 (len s3 id) ltac:(lia) ltac:(lia)).
      unfold INT_MIN, INT_MAX. lia. }
  rewrite Hz. apply heapify_eq.
  - apply Nat.div_le_upper_bound; lia.
  - lia.
  - pose proof (Nat.div_le_upper_bound (len s3 id - 1) 2 (len s3 id - 1) ltac:(lia) ltac:(lia)). lia.
Qed.
Lemma sort_loop_eq id src n : forall i s, small s id ->
  lrun (mi_sort_loop cmp id src i n) s = lrun (hp_sort_loop cmp id src i n) s.
Proof.
  induction n as [|n IH]; intros i s H; [reflexivity|]. cbn [mi_sort_loop hp_sort_loop].
  apply eq_bind; [apply top_eq, H|]. intros v s1 E1. unfold hp_top in E1. apply (sl_get triv id) in E1.
  apply eq_bind; [reflexivity|]. intros [] s2 E2. apply (sl_set triv id) in E2.
  apply eq_bind; [apply pop_eq; lia|]. intros [] s3 E3. apply sl_pop in E3. apply IH. lia.
Qed.
Lemma build_eq id obj src b n s : zn n < 2 ^ 30 -> lrun (mi_build cmp id obj src b n) s = lrun (hp_build cmp id obj src b n) s.
Proof. intros H. unfold mi_build, hp_build. apply eq_bind; [apply range_eq, H|]. reflexivity. Qed.
Lemma sort_eq id obj src b n s : zn n < 2 ^ 30 -> lrun (mi_sort cmp id obj src b n) s = lrun (hp_sort cmp id obj src b n) s.
Proof.
  intros H. unfold mi_sort, hp_sort. apply eq_bind; [apply range_eq, H|]. intros [] s1 E1. apply range_len in E1.
  apply eq_bind; [apply sort_loop_eq; lia|]. reflexivity.
Qed.

Definition lsizes s (id : nat) : option nat := (fun l => length (l_seq l)) <$> s !! id.
Lemma fits_len s (o : @hop A) id : fits (lsizes s) o -> small s id.
Proof.
  intros [H _]. unfold len. destruct (s !! id) as [l|] eqn:E; [|lia]. apply (H id). unfold lsizes. rewrite E. reflexivity.
Qed.
Lemma move_assign_eq id src s : (forall k, small s k) -> lrun (mi_move_assign id src) s = lrun (hp_move_assign (A := A) id src) s.
Proof.
  intros H. unfold mi_move_assign, hp_move_assign. apply eq_bind; [reflexivity|]. intros [] s1 E1.
  apply eq_bind; [|reflexivity]. apply (mget_eq id 0); [|unfold INT_MAX; lia]. apply small_int.
  revert E1. unfold wunit. cbn [VecProg.lrun lw_step lv_step]. unfold lwith.
  destruct (s !! id) as [l|] eqn:El; [|discriminate]. destruct (s !! src) as [u|] eqn:Eu; [|discriminate].
  destruct (Nat.eqb_spec id src) as [_|Hne].
  - intros [= <-]. apply H.
  - intros [= <-]. unfold len. rewrite lookup_insert_ne, lookup_insert by congruence. cbn [l_seq]. rewrite <- (len_get _ _ _ Eu). apply H.
Qed.
Lemma new_small id s x s' : (forall k, small s k) -> lrun (wunit (ONew id)) s = Ok (x, s') -> forall k, small s' k.
Proof.
  intros H. unfold wunit. cbn [VecProg.lrun lw_step lv_step]. unfold lnew. destruct (s !! id); [discriminate|].
  intros [= _ <-] k. unfold len. destruct (decide (id = k)) as [->|Hne].
  - rewrite lookup_insert. cbn. lia.
  - rewrite lookup_insert_ne by assumption. apply H.
Qed.
Lemma step_eq o s : fits (lsizes s) o -> lrun (mi_step cmp o) s = lrun (hp_step cmp o) s.
Proof.
  intros Hf. assert (Hs : forall k, small s k) by (intros k; eapply fits_len, Hf). destruct Hf as [_ Hf].
  destruct o; try reflexivity; cbn [mi_step hp_step]; (apply eq_bind; [|reflexivity]).
  - apply range_eq, Hf.
  - unfold mi_move_new, hp_move_new. apply eq_bind; [reflexivity|]. intros x s1 E1. apply move_assign_eq. eapply new_small; eauto.
  - apply move_assign_eq, Hs.
  - destruct (s !! id) as [l|] eqn:E.
    + apply push_eq. rewrite (len_get _ _ _ E). apply Hf. unfold lsizes. rewrite E. reflexivity.
    + apply push_eq. unfold len. rewrite E. lia.
  - apply pop_eq, Hs.
  - apply top_eq, Hs.
  - apply build_eq, Hf.
  - apply sort_eq, Hf.
Qed.
Lemma run_eq ops : forall s,
  (forall pre o post rs s', ops = pre ++ o :: post -> lrun (arun (mi_step cmp) pre) s = Ok (rs, s') -> fits (lsizes s') o) ->
  lrun (arun (mi_step cmp) ops) s = lrun (arun (hp_step cmp) ops) s.
Proof.
  induction ops as [|o ops IH]; intros s H; [reflexivity|]. cbn [arun].
  assert (E : lrun (mi_step cmp o) s = lrun (hp_step cmp o) s).
  { apply step_eq. apply (H [] o ops [] s); reflexivity. }
  apply eq_bind; [exact E|]. intros r s1 E1. apply eq_bind; [|reflexivity]. apply IH.
  intros pre o' post rs s' -> Hr. apply (H (o :: pre) o' post (r :: rs) s'); [reflexivity|].
  cbn [arun]. rewrite lrun_bind, E, E1. cbn. rewrite lrun_bind, Hr. reflexivity.
Qed.
End Heap.

Section Top.
Context {A : Type} (triv : bool) (cmp : A -> A -> bool) (le : A -> A -> Prop).
Context (Htrans : forall a b c, le a b -> le b c -> le a c).
Context (Htrue : forall a b, cmp a b = true -> le a b) (Hfalse : forall a b, cmp a b = false -> le b a).

Lemma int_heap_history ops :
  (forall pre o post rs w, ops = pre ++ o :: post ->
     wrun triv (arun (mi_step cmp) pre) world_init = Ok (rs, w) -> fits (wsizes w) o) ->
  exists r, h_run triv le ops ∅ r /\
    match r with
    | SVal (rs, s) => exists w, wrun triv (arun (mi_step cmp) ops) world_init = Ok (rs, w) /\ storage_ok w
    | SAbort => wrun triv (arun (mi_step cmp) ops) world_init = Abort
    | SUnspec => True
    end.
Proof.
  intros H.
  assert (E : lrun triv (arun (mi_step cmp) ops) ∅ = lrun triv (arun (hp_step cmp) ops) ∅).
  { apply run_eq. intros pre o post rs s' Ho Hr.
    pose proof (wrun_sim triv (arun (mi_step cmp) pre) world_init ∅ winv_init) as Hsim. rewrite Hr in Hsim.
    destruct Hsim as (w & Hw & Hi). specialize (H pre o post rs w Ho Hw).
    assert (Hsz : forall id, lsizes s' id = wsizes w id).
    { intros id. unfold lsizes, wsizes. pose proof (wi_rep _ _ Hi id) as Hrep.
      destruct (w_objs w !! id) as [v|], (s' !! id) as [l|]; cbn; try tauto. f_equal. symmetry. eapply vrep_size, (proj1 Hrep). }
    destruct H as [H1 H2]. split.
    - intros id n. rewrite Hsz. apply H1.
    - destruct o; auto. intros n. rewrite Hsz. apply H2. }
  destruct (hp_run_agree triv cmp le Htrans Htrue Hfalse ops ∅ ∅) as (r & Hr & Ha); [intros id; rewrite !lookup_empty; exact I|].
  exists r. split; [exact Hr|]. rewrite <- E in Ha. pose proof (wrun_agree triv (h_rel le) _ _ Ha) as Hw.
  destruct r as [[rs s]| |]; auto. destruct Hw as (w & Hrun & _ & Hst). eauto.
Qed.
End Top.

(** *** A heap of more than 2^30 slots *)
Section Overflow.
Context {A : Type} (triv : bool) (cmp : A -> A -> bool).
Notation lrun := (lrun triv).

Lemma mget_run s id (c : list A) cap i a : s !! id = Some (LVec c cap) -> c !! i = Some a -> zn (length c) <= INT_MAX ->
  lrun (mget id (zn i)) s = Ok (a, s).
Proof.
  intros Hs Ha Hc. pose proof (lookup_lt_Some _ _ _ Ha) as Hi. rewrite mget_eq.
  - eapply wget_ok; eauto.
  - rewrite (len_get _ _ _ Hs). exact Hc.
  - lia.
Qed.
Lemma mset_run s id (c : list A) cap i a : s !! id = Some (LVec c cap) -> (i < length c)%nat -> zn (length c) <= INT_MAX ->
  lrun (mset id (zn i) a) s = Ok (tt, <[id := LVec (<[i := a]> c) cap]> s).
Proof.
  intros Hs Hi Hc. rewrite mset_eq.
  - apply wset_ok; assumption.
  - rewrite (len_get _ _ _ Hs). exact Hc.
  - lia.
Qed.
Lemma pick_run s id (c : list A) cap t k a b : s !! id = Some (LVec c cap) -> c !! t = Some a -> c !! k = Some b ->
  zn (length c) <= INT_MAX ->
  lrun (mi_pick cmp id (zn (length c)) (zn t) (zn k)) s = Ok (if negb (cmp a b) then zn k else zn t, s).
Proof.
  intros Hs Ha Hb Hc. unfold mi_pick. pose proof (lookup_lt_Some _ _ _ Hb) as Hk.
  destruct (Z.ltb_spec (zn k) (zn (length c))); [|lia].
  rewrite lrun_bind, (mget_run _ _ _ _ _ _ Hs Ha Hc), lrun_bind, (mget_run _ _ _ _ _ _ Hs Hb Hc). reflexivity.
Qed.
Lemma pick_out s id size t k : size <= k -> lrun (mi_pick cmp id size t k) s = Ok (t, s).
Proof. intros H. unfold mi_pick. destruct (Z.ltb_spec k size); [lia|reflexivity]. Qed.
Lemma swap_run s id (c : list A) cap i j : s !! id = Some (LVec c cap) -> (i < length c)%nat -> (j < length c)%nat ->
  zn (length c) <= INT_MAX -> exists s', lrun (mi_swap id (zn i) (zn j)) s = Ok (tt, s').
Proof.
  intros Hs Hi Hj Hc. destruct (lookup_lt_is_Some_2 c i Hi) as [a Ha]. destruct (lookup_lt_is_Some_2 c j Hj) as [b Hb].
  unfold mi_swap. rewrite lrun_bind, (mget_run _ _ _ _ _ _ Hs Ha Hc), lrun_bind, (mget_run _ _ _ _ _ _ Hs Hb Hc), lrun_bind,
    (mset_run _ _ _ _ _ _ Hs Hi Hc).
  erewrite mset_run; [eexists; reflexivity|apply lookup_insert|rewrite insert_length; assumption|rewrite insert_length; assumption].
Qed.
Lemma down_overflow s id (c : list A) cap p a b : s !! id = Some (LVec c cap) -> zn (length c) <= INT_MAX ->
  c !! p = Some a -> c !! (2 * p)%nat = Some b -> cmp a b = false -> 2 ^ 30 <= zn (2 * p) ->
  lrun (mi_down cmp id (zn p)) s = UB.
Proof.
  intros Hs Hc Ha Hb Hcmp Hp. unfold mi_down. rewrite lrun_bind, (wsize_ok triv _ _ _ _ Hs).
  pose proof (lookup_lt_Some _ _ _ Hb) as Hlt. rewrite to_int_id by (unfold INT_MIN; lia).
  cbn [mi_down_loop]. rewrite wint_ok by (unfold INT_MIN; lia). cbn [wbind]. rewrite wint_ok by (unfold INT_MIN; lia). cbn [wbind].
  replace (2 * zn p) with (zn (2 * p)) by lia. replace (zn (2 * p) + 1) with (zn (2 * p + 1)) by lia.
  rewrite lrun_bind, (pick_run _ _ _ _ _ _ _ _ Hs Ha Hb Hc), Hcmp. cbn [negb].
  assert (E2 : exists t, (t = 2 * p \/ t = 2 * p + 1)%nat /\ (t < length c)%nat /\ lrun (mi_pick cmp id (zn (length c)) (zn (2 * p)) (zn (2 * p + 1))) s = Ok (zn t, s)).
  { destruct (decide (2 * p + 1 < length c)%nat) as [Hr|Hr].
    - destruct (lookup_lt_is_Some_2 c _ Hr) as [d Hd]. rewrite (pick_run _ _ _ _ _ _ _ _ Hs Hb Hd Hc).
      destruct (negb (cmp b d)); eexists; (split; [|split; [|reflexivity]]); lia.
    - rewrite pick_out by lia. eexists. split; [|split; [|reflexivity]]; lia. }
  destruct E2 as (t & Ht & Htl & E2). rewrite lrun_bind, E2.
  destruct (Z.eqb_spec (zn t) (zn p)); [lia|].
  destruct (swap_run s id c cap p t Hs ltac:(lia) Htl Hc) as [s' Hsw]. rewrite lrun_bind, Hsw.
  destruct (length c) as [|k] eqn:El; [lia|]. cbn [mi_down_loop]. rewrite wint_over by (unfold INT_MAX; lia). reflexivity.
Qed.
Lemma range_overflow (u : list A) obj x y (p := (length u / 2)%nat) :
  2 ^ 30 <= zn (length u) < INT_MAX -> u !! (p - 1)%nat = Some x -> u !! (2 * p - 1)%nat = Some y -> cmp x y = false ->
  wrun triv (arun (mi_step cmp) [HVec 0 u; HRange 1 obj 0 0 (length u)]) world_init = UB.
Proof.
  intros Hn Hx Hy Hcmp.
  pose proof (wrun_sim triv (arun (mi_step cmp) [HVec 0 u; HRange 1 obj 0 0 (length u)]) world_init ∅ winv_init) as Hsim.
  assert (E : lrun (arun (mi_step cmp) [HVec 0 u; HRange 1 obj 0 0 (length u)]) ∅ = UB); [|rewrite E in Hsim; exact Hsim].
  cbn [arun mi_step hp_step]. rewrite lrun_bind, lrun_bind, wnew_ok by apply lookup_empty.
  destruct (push_all_ok triv 0 u (<[0%nat := LVec [] 0]> ∅) [] 0 (lookup_insert _ _ _)) as [cap Ep].
  rewrite lrun_bind, Ep, insert_insert. cbn [app VecProg.lrun]. rewrite lrun_bind, lrun_bind. set (s := <[0%nat := _]> ∅).
  unfold mi_range, hp_new. rewrite lrun_bind, lrun_bind, wfill_ok by (try lia; reflexivity).
  rewrite lrun_bind. erewrite wresize_ok by apply lookup_insert. rewrite insert_insert.
  replace (firstn (length u + 1) (repeat obj 1)) with [obj] by (rewrite Nat.add_1_r; simpl; rewrite firstn_nil; reflexivity).
  set (s1 := <[1%nat := _]> s).
  destruct (hp_fill_ok triv 1 0 u cap (length u) s1 [obj] (length u + 1) 0) as [cap' Hf];
    [apply lookup_insert|unfold s1, s; rewrite lookup_insert_ne by lia; apply lookup_insert|lia|lia|].
  rewrite lrun_bind, Hf. cbn [skipn app]. rewrite firstn_all. set (s2 := <[1%nat := _]> s1).
  assert (Hs2 : s2 !! 1%nat = Some (LVec (obj :: u) cap')) by apply lookup_insert.
  rewrite lrun_bind, (wsize_ok triv _ _ _ _ Hs2). cbn [length].
  assert (Hz : to_int (to_size (zn (S (length u)) - 1) / 2) = zn p).
  { replace (zn (S (length u)) - 1) with (zn (length u)) by lia. rewrite to_size_id by (unfold INT_MAX in *; lia).
    rewrite <- zn_div2. fold p. apply to_int_id. pose proof (Nat.div_le_upper_bound (length u) 2 (length u) ltac:(lia) ltac:(lia)).
    unfold INT_MIN. lia. }
  rewrite Hz. pose proof (Nat.div_mod_eq (length u) 2) as Hdm. fold p in Hdm. pose proof (Nat.mod_upper_bound (length u) 2 ltac:(lia)).
  assert (Hp : 2 ^ 30 <= zn (2 * p)).
  { destruct (decide (2 ^ 30 <= zn (2 * p))); [assumption|exfalso].
    assert (zn (length u) = 2 ^ 30) by lia. assert (length u mod 2 = 0)%nat; [|lia].
    apply Nat2Z.inj. rewrite Nat2Z.inj_mod, H0. reflexivity. }
  cbn [mi_heapify]. destruct (Z.leb_spec 1 (zn p)); [|lia]. rewrite lrun_bind.
  rewrite (down_overflow s2 1 (obj :: u) cap' p x y); [reflexivity|exact Hs2|cbn [length]; lia| | |exact Hcmp|exact Hp].
  - destruct p as [|q]; [lia|]. cbn [lookup list_lookup]. rewrite <- Hx. f_equal. lia.
  - replace (2 * p)%nat with (S (2 * p - 1)) by lia. cbn [lookup list_lookup]. exact Hy.
Qed.
End Overflow.

Lemma int_for_spec : forall n i fuel,
  (n <= INT_MAX -> 0 <= i <= INT_MAX -> n - i <= zn fuel -> int_for fuel i n = Ok (seqZ i (n - i))) /\
  (INT_MAX < n -> 0 <= i <= INT_MAX -> INT_MAX - i < zn fuel -> int_for fuel i n = UB) /\
  (n < 2 ^ 63 -> INT_MIN <= i < 0 -> int_for fuel i n = Ok []).
Proof.
  intros n i fuel. split_and!.
  - intros Hn Hi Hf. apply int_for_ok; assumption.
  - intros Hn Hi Hf. apply int_for_overflow; assumption.
  - intros Hn Hi. apply int_for_neg; assumption.
Qed.

(** *** For examples *)
Definition small_after {A X} (p : wprog A X) : bool :=
  match wrun true p world_init with
  | Ok (_, w) => forallb (fun kv => (zn (v_size (snd kv)) <? 2 ^ 30)%Z) (map_to_list (w_objs w))
  | _ => true
  end.
Lemma small_after_ok {A X} (p : wprog A X) x w : small_after p = true -> wrun true p world_init = Ok (x, w) ->
  forall id n, wsizes w id = Some n -> zn n < 2 ^ 30.
Proof.
  intros H Hr id n. unfold small_after in H. rewrite Hr in H. rewrite forallb_forall in H. unfold wsizes.
  destruct (w_objs w !! id) as [v|] eqn:E; [|discriminate]. intros [= <-].
  specialize (H (id, v)). apply Z.ltb_lt, H. apply elem_of_list_In, elem_of_map_to_list, E.
Qed.
Lemma fits_small {A} sizes (o : @hop A) : (forall id n, sizes id = Some n -> zn n < 2 ^ 30) ->
  match o with HRange _ _ _ _ n | HBuild _ _ _ _ n | HSort _ _ _ _ n => zn n < 2 ^ 30 | _ => True end -> fits sizes o.
Proof.
  intros H Ho. split.
  - intros id n E. specialize (H id n E). lia.
  - destruct o; auto. intros n. apply H.
Qed.
Lemma repeat_lookup {A} (a : A) n i : (i < n)%nat -> repeat a n !! i = Some a.
Proof. revert i. induction n as [|n IH]; intros i Hi; [lia|]. destruct i as [|i]; [reflexivity|]. cbn. apply IH. lia. Qed.
