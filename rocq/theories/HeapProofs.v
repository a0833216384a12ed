(** Proofs about Heap. *)
From Coq Require Import Sorting.Sorted.
From Verif Require Import Base VectorModel VectorSpec VecProg VectorProofs VectorWorld VectorExtra LRun Adapter HeapModel HeapSpec.

Section Lists.
Context {A : Type}.
Implicit Types l c : list A.

Lemma insert_head_perm l j a b : l !! j = Some b -> Permutation (b :: <[j := a]> l) (a :: l).
Proof.
  revert j. induction l as [|x l IH]; intros [|j] H; simpl in H; try discriminate.
  - injection H as ->. simpl. apply perm_swap.
  - simpl. rewrite perm_swap, (IH j H). apply perm_swap.
Qed.

Lemma swap_perm l i j a b : i <> j -> l !! i = Some a -> l !! j = Some b ->
  Permutation (<[j := a]> (<[i := b]> l)) l.
Proof.
  revert i j. induction l as [|x l IH]; intros [|i] [|j] Hne Hi Hj; simpl in Hi, Hj; try discriminate; try lia.
  - injection Hi as ->. simpl. apply insert_head_perm, Hj.
  - injection Hj as ->. simpl. apply insert_head_perm, Hi.
  - simpl. apply perm_skip, IH; auto.
Qed.

Lemma swap_lookup l i j a b k : i <> j -> l !! i = Some a -> l !! j = Some b ->
  <[j := a]> (<[i := b]> l) !! k = (if Nat.eqb k j then Some a else if Nat.eqb k i then Some b else l !! k).
Proof.
  intros Hne Hi Hj. pose proof (lookup_lt_Some _ _ _ Hi). pose proof (lookup_lt_Some _ _ _ Hj).
  destruct (Nat.eqb_spec k j) as [->|]; [apply list_lookup_insert; rewrite insert_length; lia|].
  rewrite list_lookup_insert_ne by lia.
  destruct (Nat.eqb_spec k i) as [->|]; [apply list_lookup_insert; lia|].
  apply list_lookup_insert_ne. lia.
Qed.

(** Overwriting a stretch. *)
Definition blit (u : list A) (i : nat) (l : list A) : list A := firstn i u ++ l ++ skipn (i + length l) u.

Lemma blit_nil u i : blit u i [] = u.
Proof. unfold blit. simpl. rewrite Nat.add_0_r. apply firstn_skipn. Qed.

Lemma blit_cons u i a l : i < length u -> blit (<[i := a]> u) (S i) l = blit u i (a :: l).
Proof.
  intros Hi. unfold blit. change (take (S i) (<[i:=a]> u) ++ l ++ drop (S i + length l) (<[i:=a]> u)
    = take i u ++ (a :: l) ++ drop (i + S (length l)) u).
  rewrite drop_insert_gt by lia. rewrite (take_S_r _ i a) by (apply list_lookup_insert; exact Hi).
  rewrite take_insert by lia. rewrite <- app_assoc. simpl. replace (i + S (length l)) with (S (i + length l)) by lia.
  reflexivity.
Qed.

End Lists.

Section HeapP.
Context {A : Type} (triv : bool) (cmp : A -> A -> bool) (le : A -> A -> Prop).
Hypothesis le_trans : forall a b c, le a b -> le b c -> le a c.
Hypothesis cmp_le : forall a b, cmp a b = true -> le a b.
Hypothesis cmp_ge : forall a b, cmp a b = false -> le b a.
Implicit Types (s : lworld A) (c : list A).

(** Heap order of the stored sequence (index 0 is the sentinel) above [lo]. *)
Definition hord (lo : nat) c : Prop :=
  forall i x y, 1 <= i / 2 -> lo <= i / 2 -> c !! (i / 2) = Some x -> c !! i = Some y -> le x y.

Lemma hp_swap_ok s id c cap i j a b :
  s !! id = Some (LVec c cap) -> i <> j -> c !! i = Some a -> c !! j = Some b ->
  lrun triv (hp_swap id i j) s = Ok (tt, <[id := LVec (<[j := a]> (<[i := b]> c)) cap]> s).
Proof.
  intros Hs Hne Hi Hj. pose proof (lookup_lt_Some _ _ _ Hi). pose proof (lookup_lt_Some _ _ _ Hj).
  unfold hp_swap. lgo wget_ok. lgo wget_ok. lgo wset_ok.
  erewrite wset_ok; [|apply lookup_insert|rewrite insert_length; lia]. rewrite insert_insert. reflexivity.
Qed.

(** Result of a rearrangement: same vector, permuted, sentinel in place. *)
Definition rearr c c' : Prop := Permutation c' c /\ c' !! 0 = c !! 0.
Lemma rearr_refl c : rearr c c.
Proof. split; reflexivity. Qed.
Lemma rearr_trans c1 c2 c3 : rearr c1 c2 -> rearr c2 c3 -> rearr c1 c3.
Proof. intros [H1 E1] [H2 E2]. split; [etransitivity; eassumption|congruence]. Qed.
Lemma rearr_swap c i j a b : 1 <= i -> 1 <= j -> i <> j -> c !! i = Some a -> c !! j = Some b ->
  rearr c (<[j := a]> (<[i := b]> c)).
Proof.
  intros H1 H2 Hne Hi Hj. split; [apply swap_perm; assumption|].
  rewrite (swap_lookup c i j a b 0 Hne Hi Hj). destruct (Nat.eqb_spec 0 j); [lia|]. destruct (Nat.eqb_spec 0 i); [lia|]. reflexivity.
Qed.
Lemma rearr_length c c' : rearr c c' -> length c' = length c.
Proof. intros [H _]. apply Permutation_length, H. Qed.

Lemma lookup_some c i : i < length c -> exists a, c !! i = Some a.
Proof. intros H. destruct (lookup_lt_is_Some_2 c i H) as [a Ha]. eauto. Qed.

(** *** Sift up *)
Lemma up_loop_ok fuel id cap : forall s c k,
  s !! id = Some (LVec c cap) -> k < fuel -> 1 <= k < length c \/ length c = 1 /\ k = 0 ->
  (forall i x y, 1 <= i / 2 -> i <> k -> c !! (i / 2) = Some x -> c !! i = Some y -> le x y) ->
  (forall i x y, i / 2 = k -> 1 <= k / 2 -> c !! (k / 2) = Some x -> c !! i = Some y -> le x y) ->
  exists c', lrun triv (hp_up_loop cmp fuel id k) s = Ok (tt, <[id := LVec c' cap]> s) /\
    rearr c c' /\ hord 1 c'.
Proof.
  induction fuel as [|f IH]; intros s c k Hs Hf Hk I1 I2; [lia|]. cbn [hp_up_loop].
  assert (Hdone : forall (Hend : forall x y, 1 <= k / 2 -> c !! (k / 2) = Some x -> c !! k = Some y -> le x y),
    exists c', @Ok (unit * lworld A) (tt, s) = Ok (tt, <[id := LVec c' cap]> s) /\ rearr c c' /\ hord 1 c').
  { intros Hend. exists c. rewrite insert_id by exact Hs. split_and!; [reflexivity|apply rearr_refl|].
    intros i x y Hi _ Hx Hy. destruct (Nat.eq_dec i k) as [->|]; eauto. }
  destruct (Nat.ltb_spec 1 k) as [H1|H1].
  2:{ apply Hdone. intros x y Hp. assert (k / 2 = 0) by (apply Nat.div_small; lia). lia. }
  assert (Hp : 1 <= k / 2 /\ k / 2 < k).
  { split; [apply (Nat.div_le_lower_bound k 2 1); lia|apply Nat.div_lt; lia]. }
  destruct (lookup_some c (k / 2)) as [a Ha]; [lia|]. destruct (lookup_some c k) as [b Hb]; [lia|].
  lgo wget_ok. lgo wget_ok. destruct (cmp a b) eqn:Hc; cbn [negb].
  - apply Hdone. intros x y _ Hx Hy. rewrite Ha in Hx. rewrite Hb in Hy. injection Hx as <-. injection Hy as <-. auto.
  - pose proof (cmp_ge _ _ Hc) as Hle.
    assert (Hne : k / 2 <> k) by lia.
    erewrite lrun_bind_ok by (eapply hp_swap_ok; [exact Hs|exact Hne|exact Ha|exact Hb]).
    set (c1 := <[k := a]> (<[k / 2 := b]> c)).
    pose proof (rearr_swap c (k / 2) k a b ltac:(lia) ltac:(lia) Hne Ha Hb) as Hre. fold c1 in Hre.
    pose proof (rearr_length _ _ Hre) as Hlen.
    assert (Hlk : forall i, c1 !! i = (if Nat.eqb i k then Some a else if Nat.eqb i (k / 2) then Some b else c !! i)).
    { intros i. apply swap_lookup; assumption. }
    destruct (IH (<[id := LVec c1 cap]> s) c1 (k / 2)) as (c2 & Hrun & Hre2 & Hord).
    + apply lookup_insert.
    + lia.
    + lia.
    + intros i x y Hi Hik Hx Hy. rewrite Hlk in Hx, Hy.
      destruct (Nat.eqb_spec i (k / 2)) as [|_]; [contradiction|].
      destruct (Nat.eqb_spec (i / 2) k) as [E|E].
      * (* child of k *) injection Hx as <-.
        destruct (Nat.eqb_spec i k) as [->|]; [lia|]. eapply (I2 i); eauto; lia.
      * destruct (Nat.eqb_spec (i / 2) (k / 2)) as [E2|E2].
        -- injection Hx as <-. destruct (Nat.eqb_spec i k) as [->|].
           ++ injection Hy as <-. exact Hle.
           ++ apply (le_trans _ a); [exact Hle|]. apply (I1 i a y); auto. rewrite E2. exact Ha.
        -- destruct (Nat.eqb_spec i k) as [->|]; [lia|]. eapply I1; eauto.
    + intros i x y Hi Hp2 Hx Hy. rewrite Hlk in Hx, Hy.
      assert (k / 2 / 2 < k / 2) by (apply Nat.div_lt; lia).
      destruct (Nat.eqb_spec (k / 2 / 2) k); [lia|]. destruct (Nat.eqb_spec (k / 2 / 2) (k / 2)); [lia|].
      destruct (Nat.eqb_spec i (k / 2)) as [->|_]; [lia|].
      assert (Hxa : le x a) by (apply (I1 (k / 2) x a); auto; lia).
      destruct (Nat.eqb_spec i k) as [->|]; [injection Hy as <-; exact Hxa|].
      apply (le_trans _ a); [exact Hxa|]. apply (I1 i a y); auto; [lia|rewrite Hi; exact Ha].
    + exists c2. rewrite Hrun, insert_insert. split_and!; [reflexivity| |exact Hord].
      eapply rearr_trans; eassumption.
Qed.

(** *** Sift down *)
Lemma pick_ok s id c cap size t ch a :
  s !! id = Some (LVec c cap) -> size = length c -> c !! t = Some a ->
  exists t' b, lrun triv (hp_pick cmp id size t ch) s = Ok (t', s) /\ c !! t' = Some b /\
    ((t' = t /\ b = a /\ forall y, c !! ch = Some y -> le a y) \/
     (t' = ch /\ ch < length c /\ le b a)).
Proof.
  intros Hs -> Ha. unfold hp_pick. destruct (Nat.ltb_spec ch (length c)) as [Hlt|Hge].
  - destruct (lookup_some c ch Hlt) as [b Hb]. lgo wget_ok. lgo wget_ok. cbn [lrun].
    destruct (cmp a b) eqn:E; cbn [negb].
    + exists t, a. split_and!; auto. left. split_and!; auto. intros y Hy. rewrite Hb in Hy. injection Hy as <-. auto.
    + exists ch, b. split_and!; auto.
  - exists t, a. split_and!; auto. left. split_and!; auto. intros y Hy. apply lookup_lt_Some in Hy. lia.
Qed.

Lemma child_cases i k : i / 2 = k -> i = 2 * k \/ i = 2 * k + 1.
Proof. intros <-. pose proof (Nat.div_mod i 2 ltac:(lia)). pose proof (Nat.mod_upper_bound i 2 ltac:(lia)). lia. Qed.
Lemma child_l k : 2 * k / 2 = k.
Proof. rewrite Nat.mul_comm. apply Nat.div_mul. lia. Qed.
Lemma child_r k : (2 * k + 1) / 2 = k.
Proof. symmetry. apply (Nat.div_unique _ 2 k 1); lia. Qed.

Lemma down_loop_ok lo fuel id cap : forall s c k,
  1 <= lo ->
  s !! id = Some (LVec c cap) -> length c < fuel + k -> 1 <= k < length c \/ length c = 1 /\ k = 1 -> 1 <= fuel ->
  (forall i x y, lo <= i / 2 -> i / 2 <> k -> c !! (i / 2) = Some x -> c !! i = Some y -> le x y) ->
  (forall i x y, i / 2 = k -> lo <= k / 2 -> c !! (k / 2) = Some x -> c !! i = Some y -> le x y) ->
  exists c', lrun triv (hp_down_loop cmp fuel id (length c) k) s = Ok (tt, <[id := LVec c' cap]> s) /\
    rearr c c' /\ hord lo c'.
Proof.
  induction fuel as [|f IH]; intros s c k Hlo Hs Hf Hk Hf1 I1 I2; [lia|]. cbn [hp_down_loop].
  destruct Hk as [Hk|[Hl ->]].
  2:{ (* only the sentinel *)
      assert (E : forall t ch, 1 <= ch -> lrun triv (hp_pick cmp id (length c) t ch) s = Ok (t, s)).
      { intros t ch Hch. unfold hp_pick. rewrite Hl. destruct (Nat.ltb_spec ch 1); [lia|reflexivity]. }
      rewrite (lrun_bind_ok _ _ _ _ _ _ (E 1 (2 * 1) ltac:(lia))).
      rewrite (lrun_bind_ok _ _ _ _ _ _ (E 1 (2 * 1 + 1) ltac:(lia))). rewrite Nat.eqb_refl.
      exists c. rewrite insert_id by exact Hs. split_and!; [reflexivity|apply rearr_refl|].
      intros i x y Hi _ Hx Hy. apply lookup_lt_Some in Hx. lia. }
  destruct (lookup_some c k) as [a Ha]; [lia|].
  destruct (pick_ok s id c cap _ k (2 * k) a Hs eq_refl Ha) as (t1 & b1 & Hr1 & Hb1 & Hc1).
  destruct (pick_ok s id c cap _ t1 (2 * k + 1) b1 Hs eq_refl Hb1) as (t2 & b2 & Hr2 & Hb2 & Hc2).
  rewrite (lrun_bind_ok _ _ _ _ _ _ Hr1), (lrun_bind_ok _ _ _ _ _ _ Hr2).
  destruct (Nat.eqb_spec t2 k) as [->|Hne].
  - exists c. rewrite insert_id by exact Hs. split_and!; [reflexivity|apply rearr_refl|].
    intros i x y H1 Hi Hx Hy. destruct (Nat.eq_dec (i / 2) k) as [E|E]; [|eauto].
    rewrite E in Hx. rewrite Ha in Hx. injection Hx as <-.
    destruct Hc2 as [(Ek & -> & Hc2)|(E2 & _)]; [|lia].
    destruct Hc1 as [(_ & -> & Hc1)|(E1 & _)]; [|lia].
    destruct (child_cases i k E) as [->| ->]; auto.
  - assert (Ht : k < t2 /\ t2 < length c /\ t2 / 2 = k /\ le b2 a /\
        forall i y, i / 2 = k -> i <> t2 -> c !! i = Some y -> le b2 y).
    { destruct Hc2 as [(-> & -> & Hc2)|(-> & Hlt & Hle2)].
      - destruct Hc1 as [(-> & -> & Hc1)|(-> & Hlt & Hle1)]; [congruence|].
        split_and!; auto; try lia; [apply child_l|].
        intros i y E Hi Hy. destruct (child_cases i k E) as [->| ->]; [congruence|auto].
      - destruct Hc1 as [(-> & -> & Hc1)|(-> & Hlt1 & Hle1)].
        + split_and!; auto; try lia; [apply child_r|].
          intros i y E Hi Hy. destruct (child_cases i k E) as [->| ->]; [|congruence]. eauto.
        + split_and!; auto; try lia; [apply child_r|eauto|].
          intros i y E Hi Hy. destruct (child_cases i k E) as [->| ->]; [|congruence].
          rewrite Hb1 in Hy. injection Hy as <-. exact Hle2. }
    destruct Ht as (Hkt & Htl & Htp & Hba & Hsib).
    assert (Hne' : k <> t2) by lia.
    erewrite lrun_bind_ok by (eapply hp_swap_ok; [exact Hs|exact Hne'|exact Ha|exact Hb2]).
    set (c1 := <[t2 := a]> (<[k := b2]> c)).
    pose proof (rearr_swap c k t2 a b2 ltac:(lia) ltac:(lia) Hne' Ha Hb2) as Hre. fold c1 in Hre.
    pose proof (rearr_length _ _ Hre) as Hlen. rewrite <- Hlen.
    assert (Hlk : forall i, c1 !! i = (if Nat.eqb i t2 then Some a else if Nat.eqb i k then Some b2 else c !! i)).
    { intros i. apply swap_lookup; assumption. }
    assert (Hkk : k / 2 < k) by (apply Nat.div_lt; lia).
    destruct (IH (<[id := LVec c1 cap]> s) c1 t2) as (c2 & Hrun & Hre2 & Hord); auto.
    + apply lookup_insert.
    + lia.
    + lia.
    + lia.
    + intros i x y Hi Hit Hx Hy. rewrite Hlk in Hx, Hy.
      destruct (Nat.eqb_spec (i / 2) t2) as [|_]; [contradiction|].
      destruct (Nat.eqb_spec (i / 2) k) as [E|E].
      * injection Hx as <-. destruct (Nat.eqb_spec i t2) as [->|].
        -- injection Hy as <-. exact Hba.
        -- destruct (Nat.eqb_spec i k) as [->|]; [lia|]. eauto.
      * destruct (Nat.eqb_spec i t2) as [->|]; [congruence|].
        destruct (Nat.eqb_spec i k) as [->|]; [|eauto].
        injection Hy as <-. apply (I2 t2 x b2); auto.
    + intros i x y Hi Hp2 Hx Hy. rewrite Htp in *. rewrite Hlk in Hx, Hy.
      destruct (Nat.eqb_spec k t2); [lia|]. rewrite Nat.eqb_refl in Hx. injection Hx as <-.
      destruct (Nat.eqb_spec i t2) as [->|]; [lia|]. destruct (Nat.eqb_spec i k) as [->|]; [lia|].
      apply (I1 i b2 y); auto; rewrite ?Hi; auto; lia.
    + exists c2. rewrite Hrun, insert_insert. split_and!; [reflexivity| |exact Hord].
      eapply rearr_trans; eassumption.
Qed.

(** *** The heap as a sequence: sentinel, then heap-ordered elements *)
Lemma hord_tail g l : hord 1 (g :: l) <-> (heap_ord le) l.
Proof.
  split.
  - intros H i j x y Hj Hx Hy. rewrite nth_error_lookup in Hx, Hy.
    assert (E : S j / 2 = S i) by (destruct Hj as [->| ->];
      [replace (S (2 * i + 1)) with (2 * S i) by lia; apply child_l
      |replace (S (2 * i + 2)) with (2 * S i + 1) by lia; apply child_r]).
    apply (H (S j)); rewrite ?E; auto; lia.
  - intros H i x y H1 _ Hx Hy. destruct (i / 2) as [|p] eqn:E; [lia|].
    destruct i as [|i]; [simpl in E; discriminate|]. simpl in Hx, Hy.
    apply (H p i x y); rewrite ?nth_error_lookup; auto. destruct (child_cases _ _ E); lia.
Qed.

Lemma heap_ord_first l : (heap_ord le) l -> first_extremal le l.
Proof.
  intros H. destruct l as [|x l]; [exact I|]. intros y Hy.
  apply In_nth_error in Hy as [k Hk].
  assert (G : forall j y, nth_error (x :: l) j = Some y -> j = 0 \/ le x y).
  { induction j as [j IH] using lt_wf_ind. intros z Hz. destruct j as [|j]; [auto|]. right.
    set (p := j / 2).
    assert (Hp : S j = 2 * p + 1 \/ S j = 2 * p + 2).
    { subst p. pose proof (Nat.div_mod j 2 ltac:(lia)). pose proof (Nat.mod_upper_bound j 2 ltac:(lia)). lia. }
    assert (Hpl : p < length (x :: l)) by (assert (nth_error (x :: l) (S j) <> None) by congruence;
      apply nth_error_Some in H0; lia).
    destruct (nth_error (x :: l) p) as [w|] eqn:Hw; [|apply nth_error_None in Hw; lia].
    pose proof (H p (S j) w z Hp Hw Hz) as Hle.
    destruct (IH p ltac:(lia) w Hw) as [->|Hxw]; [injection Hw as <-; exact Hle|eauto]. }
  destruct (G (S k) y Hk) as [|]; [discriminate|assumption].
Qed.

Lemma rearr_cons g l c' : rearr (g :: l) c' -> exists l', c' = g :: l' /\ Permutation l' l.
Proof.
  intros [Hp H0]. destruct c' as [|g' l']; [discriminate|]. simpl in H0. injection H0 as ->.
  exists l'. split; [reflexivity|]. eapply Permutation_cons_inv; exact Hp.
Qed.

Lemma hp_push_ok s id g l cap a :
  s !! id = Some (LVec (g :: l) cap) -> (heap_ord le) l ->
  exists l' cap', lrun triv (hp_push cmp id a) s = Ok (tt, <[id := LVec (g :: l') cap']> s) /\
    Permutation l' (a :: l) /\ (heap_ord le) l'.
Proof.
  intros Hs Ho. unfold hp_push. lgo wpush_ok. unfold hp_up.
  set (cap1 := cap_push _ _). set (s1 := <[id := LVec _ cap1]> s).
  assert (Hs1 : s1 !! id = Some (LVec (g :: l ++ [a]) cap1)) by apply lookup_insert.
  lgo wsize_ok. cbn [length]. rewrite app_length. simpl length. rewrite Nat.add_1_r.
  apply hord_tail with (g := g) in Ho.
  assert (Hlk : forall i y, (g :: l ++ [a]) !! i = Some y -> i <> S (length l) -> (g :: l) !! i = Some y).
  { intros i y Hy Hi. change (g :: l ++ [a]) with ((g :: l) ++ [a]) in Hy.
    pose proof (lookup_lt_Some _ _ _ Hy) as Hlt. rewrite app_length in Hlt. simpl in Hlt.
    rewrite lookup_app_l in Hy by (simpl; lia). exact Hy. }
  destruct (up_loop_ok (S (S (length l))) id cap1 s1 (g :: l ++ [a]) (S (length l))) as (c' & Hrun & Hre & Hord); auto.
  - left. simpl. rewrite app_length. simpl. lia.
  - intros i x y Hi Hne Hx Hy. assert (i / 2 < i) by (apply Nat.div_lt; destruct i; simpl in Hi; lia).
    pose proof (lookup_lt_Some _ _ _ Hy) as Hlt. simpl in Hlt. rewrite app_length in Hlt. simpl in Hlt.
    apply (Ho i); auto; apply Hlk; auto; lia.
  - intros i x y Hi Hk Hx Hy. apply lookup_lt_Some in Hy. simpl in Hy. rewrite app_length in Hy. simpl in Hy.
    destruct (child_cases _ _ Hi); lia.
  - replace (S (S (length l)) - 1) with (S (length l)) by lia. rewrite Hrun. unfold s1. rewrite insert_insert.
    destruct (rearr_cons _ _ _ Hre) as (l' & -> & Hp). exists l', cap1. split_and!; [reflexivity| |].
    + rewrite Hp, Permutation_app_comm. reflexivity.
    + apply hord_tail with (g := g). exact Hord.
Qed.

Lemma hp_top_ok s id g x l cap : s !! id = Some (LVec (g :: x :: l) cap) -> lrun triv (hp_top id) s = Ok (x, s).
Proof. intros Hs. unfold hp_top. apply (wget_ok triv s id _ cap 1 x Hs). reflexivity. Qed.
Lemma hp_top_abort s id g cap : s !! id = Some (LVec [g] cap) -> lrun triv (@hp_top A id) s = Abort.
Proof. intros Hs. unfold hp_top. apply (wget_abort triv s id _ cap 1 Hs). simpl. lia. Qed.

Lemma hp_down_ok lo s id c cap k :
  1 <= lo -> s !! id = Some (LVec c cap) -> 1 <= k < length c \/ length c = 1 /\ k = 1 ->
  (forall i x y, lo <= i / 2 -> i / 2 <> k -> c !! (i / 2) = Some x -> c !! i = Some y -> le x y) ->
  (forall i x y, i / 2 = k -> lo <= k / 2 -> c !! (k / 2) = Some x -> c !! i = Some y -> le x y) ->
  exists c', lrun triv (hp_down cmp id k) s = Ok (tt, <[id := LVec c' cap]> s) /\ rearr c c' /\ hord lo c'.
Proof.
  intros Hlo Hs Hk I1 I2. unfold hp_down. lgo wsize_ok. apply down_loop_ok; auto; lia.
Qed.

Lemma hp_pop_ok s id g x l cap :
  s !! id = Some (LVec (g :: x :: l) cap) -> (heap_ord le) (x :: l) ->
  exists l' cap', lrun triv (hp_pop cmp id) s = Ok (tt, <[id := LVec (g :: l') cap']> s) /\
    Permutation l' l /\ (heap_ord le) l'.
Proof.
  intros Hs Ho. unfold hp_pop.
  destruct (list_snoc_cases l) as [->|(l0 & b & ->)].
  - change [g; x] with ([g] ++ [x]) in Hs. lgo wback_ok.
    erewrite lrun_bind_ok by (apply (wset_ok triv s id _ cap 1 x Hs); simpl; lia).
    set (s1 := <[id := _]> s). assert (Hs1 : s1 !! id = Some (LVec ([g] ++ [x]) cap)) by apply lookup_insert.
    lgo wpop_ok. set (cap2 := cap_pop _ _). set (s2 := <[id := LVec [g] cap2]> s1).
    destruct (hp_down_ok 1 s2 id [g] cap2 1) as (c' & Hrun & Hre & Hord); auto.
    { apply lookup_insert. }
    { intros i y z Hi _ Hy. apply lookup_lt_Some in Hy. change (length [g]) with 1 in Hy. lia. }
    { intros i y z _ Hi. simpl in Hi. lia. }
    rewrite Hrun. destruct (rearr_cons _ _ _ Hre) as (l' & -> & Hp). exists l', cap2.
    unfold s2, s1. rewrite !insert_insert. split_and!; auto. apply hord_tail with (g := g). exact Hord.
  - assert (E : g :: x :: l0 ++ [b] = (g :: x :: l0) ++ [b]) by reflexivity. rewrite E in Hs.
    lgo wback_ok.
    erewrite lrun_bind_ok by (apply (wset_ok triv s id _ cap 1 b Hs); simpl; lia).
    set (s1 := <[id := _]> s). assert (Hs1 : s1 !! id = Some (LVec ((g :: b :: l0) ++ [b]) cap)) by apply lookup_insert.
    lgo wpop_ok. set (cap2 := cap_pop _ _). set (s2 := <[id := LVec (g :: b :: l0) cap2]> s1).
    apply hord_tail with (g := g) in Ho. rewrite E in Ho.
    destruct (hp_down_ok 1 s2 id (g :: b :: l0) cap2 1) as (c' & Hrun & Hre & Hord); auto.
    { apply lookup_insert. }
    { left. simpl. lia. }
    { intros i y z Hi Hne Hy Hz.
      assert (i / 2 < i) by (apply Nat.div_lt; destruct i; simpl in Hi; lia).
      pose proof (lookup_lt_Some _ _ _ Hz) as Hlt.
      apply (Ho i); auto.
      - rewrite lookup_app_l by (simpl in *; lia). destruct (i / 2) as [|[|p]]; [lia|congruence|exact Hy].
      - rewrite lookup_app_l by (simpl in *; lia). destruct i as [|[|i]]; [exfalso; simpl in Hi; lia|exfalso; change (1 <= 0) in Hi; lia|exact Hz]. }
    { intros i y z _ Hi. simpl in Hi. lia. }
    rewrite Hrun. destruct (rearr_cons _ _ _ Hre) as (l' & -> & Hp). exists l', cap2.
    unfold s2, s1. rewrite !insert_insert. split_and!; auto.
    + rewrite Hp. change (b :: l0) with ([b] ++ l0). apply Permutation_app_comm.
    + apply hord_tail with (g := g). exact Hord.
Qed.

Lemma hp_pop_abort s id g cap : s !! id = Some (LVec [g] cap) -> lrun triv (hp_pop cmp id) s = Abort.
Proof.
  intros Hs. unfold hp_pop. rewrite lrun_bind, (wback_ok triv s id [] g cap Hs), lrun_bind.
  change 1%Z with (Z.of_nat 1). rewrite (wset_abort triv s id [g] cap 1 g Hs) by (simpl; lia). reflexivity.
Qed.

(** *** Construction from a range *)
Lemma hp_fill_ok id src u ucap n : forall s c cap i,
  s !! id = Some (LVec c cap) -> s !! src = Some (LVec u ucap) -> id <> src -> i + n <= length u ->
  exists cap', lrun triv (hp_fill id src i n) s = Ok (tt, <[id := LVec (c ++ firstn n (skipn i u)) cap']> s).
Proof.
  induction n as [|n IH]; intros s c cap i Hs Hu Hne Hi; cbn [hp_fill].
  - exists cap. rewrite firstn_O, app_nil_r, insert_id by exact Hs. reflexivity.
  - destruct (lookup_some u i) as [a Ha]; [lia|].
    erewrite lrun_bind_ok by (eapply wpush_elem_ok; eauto).
    destruct (IH (<[id := LVec (c ++ [a]) (cap_push (length c) cap)]> s) (c ++ [a]) (cap_push (length c) cap) (S i)) as [cap' ->];
      [apply lookup_insert|rewrite lookup_insert_ne by assumption; exact Hu|assumption|lia|].
    exists cap'. rewrite insert_insert, <- app_assoc. do 4 f_equal.
    change (skipn i u) with (drop i u). rewrite (drop_S u a i Ha). reflexivity.
Qed.

Lemma heapify_ok id cap k : forall s c,
  s !! id = Some (LVec c cap) -> k < length c -> hord (S k) c ->
  exists c', lrun triv (hp_heapify cmp id k) s = Ok (tt, <[id := LVec c' cap]> s) /\ rearr c c' /\ hord 1 c'.
Proof.
  induction k as [|k IH]; intros s c Hs Hk Ho; cbn [hp_heapify].
  - exists c. rewrite insert_id by exact Hs. split_and!; auto using rearr_refl.
  - destruct (hp_down_ok (S k) s id c cap (S k)) as (c1 & Hrun & Hre & Hord); auto; try lia.
    + intros i x y Hi Hne. apply Ho; lia.
    + intros i x y _ Hp. assert (S k / 2 < S k) by (apply Nat.div_lt; lia). lia.
    + rewrite (lrun_bind_ok _ _ _ _ _ _ Hrun).
      destruct (IH (<[id := LVec c1 cap]> s) c1) as (c2 & Hrun2 & Hre2 & Hord2); auto.
      { apply lookup_insert. }
      { rewrite (rearr_length _ _ Hre). lia. }
      exists c2. rewrite Hrun2, insert_insert. split_and!; auto. eapply rearr_trans; eassumption.
Qed.

Lemma hp_range_ok s id obj src b n u ucap :
  s !! id = None -> s !! src = Some (LVec u ucap) -> b + n <= length u ->
  exists l cap, lrun triv (hp_range cmp id obj src b n) s = Ok (tt, <[id := LVec (obj :: l) cap]> s) /\
    Permutation l (firstn n (skipn b u)) /\ (heap_ord le) l.
Proof.
  intros Hs Hu Hb. assert (Hne : id <> src) by congruence. unfold hp_range, hp_new.
  erewrite lrun_bind_ok by (apply wfill_ok; [exact Hs|lia]).
  erewrite lrun_bind_ok by (eapply wresize_ok, lookup_insert). rewrite insert_insert.
  replace (firstn (n + 1) (repeat obj 1)) with [obj] by (rewrite Nat.add_1_r; simpl; rewrite firstn_nil; reflexivity).
  set (s1 := <[id := _]> s).
  destruct (hp_fill_ok id src u ucap n s1 [obj] (n + 1) b) as [cap' Hf]; auto.
  { apply lookup_insert. } { unfold s1. rewrite lookup_insert_ne by assumption. exact Hu. }
  rewrite (lrun_bind_ok _ _ _ _ _ _ Hf). unfold s1. rewrite insert_insert. set (s2 := <[id := _]> s).
  assert (Hs2 : s2 !! id = Some (LVec (obj :: firstn n (skipn b u)) cap')) by apply lookup_insert.
  lgo wsize_ok. cbn [length].
  set (m := length (firstn n (skipn b u))). replace (S m - 1) with m by lia.
  destruct (heapify_ok id cap' (m / 2) s2 (obj :: firstn n (skipn b u)) Hs2) as (c' & Hrun & Hre & Hord).
  - cbn [length]. fold m. pose proof (Nat.div_le_upper_bound m 2 m ltac:(lia) ltac:(lia)). lia.
  - intros i x y _ Hi Hx Hy. apply lookup_lt_Some in Hy. cbn [length] in Hy. fold m in Hy.
    assert (i / 2 <= m / 2) by (apply Nat.div_le_mono; lia). lia.
  - rewrite Hrun. destruct (rearr_cons _ _ _ Hre) as (l & -> & Hp). exists l, cap'.
    unfold s2. rewrite insert_insert. split_and!; auto. apply hord_tail with (g := obj). exact Hord.
Qed.

Lemma copy_back_ok id dst c cap ucap l : forall s u h i,
  s !! id = Some (LVec c cap) -> s !! dst = Some (LVec u ucap) -> id <> dst ->
  (forall j x, l !! j = Some x -> c !! (h + j) = Some x) -> i + length l <= length u ->
  lrun triv (hp_copy_back id h dst i (length l)) s = Ok (tt, <[dst := LVec (blit u i l) ucap]> s).
Proof.
  induction l as [|a l IH]; intros s u h i Hs Hu Hne Hc Hi; cbn [length hp_copy_back].
  - rewrite blit_nil, insert_id by exact Hu. reflexivity.
  - simpl in Hi. assert (Ha : c !! h = Some a) by (rewrite <- (Nat.add_0_r h); apply Hc; reflexivity).
    lgo wget_ok. erewrite lrun_bind_ok by (eapply wset_ok; [exact Hu|lia]).
    rewrite IH with (u := <[i := a]> u).
    + rewrite insert_insert, blit_cons by lia. reflexivity.
    + rewrite lookup_insert_ne by congruence. exact Hs.
    + apply lookup_insert.
    + assumption.
    + intros j x Hj. replace (S h + j) with (h + S j) by lia. apply Hc. exact Hj.
    + rewrite insert_length. lia.
Qed.

Lemma hp_build_ok s id obj src b n u ucap :
  s !! id = None -> s !! src = Some (LVec u ucap) -> b + n <= length u ->
  exists l cap, lrun triv (hp_build cmp id obj src b n) s =
      Ok (tt, <[src := LVec (blit u b l) ucap]> (<[id := LVec (obj :: l) cap]> s)) /\
    Permutation l (firstn n (skipn b u)) /\ (heap_ord le) l /\ length l = n.
Proof.
  intros Hs Hu Hb. assert (Hne : id <> src) by congruence. unfold hp_build.
  destruct (hp_range_ok s id obj src b n u ucap Hs Hu Hb) as (l & cap & Hrun & Hp & Ho).
  assert (Hl : length l = n).
  { rewrite (Permutation_length Hp), firstn_length, skipn_length. lia. }
  exists l, cap. rewrite (lrun_bind_ok _ _ _ _ _ _ Hrun). split_and!; auto.
  rewrite <- Hl. eapply copy_back_ok; [apply lookup_insert| |exact Hne| |lia].
  - rewrite lookup_insert_ne by assumption. exact Hu.
  - intros j x Hj. exact Hj.
Qed.

Lemma sort_loop_ok id src obj ucap n : forall s u i l cap,
  s !! id = Some (LVec (obj :: l) cap) -> s !! src = Some (LVec u ucap) -> id <> src ->
  (heap_ord le) l -> length l = n -> i + n <= length u ->
  exists l' h, lrun triv (hp_sort_loop cmp id src i n) s =
      Ok (tt, <[src := LVec (blit u i l') ucap]> (<[id := h]> s)) /\
    Permutation l' l /\ StronglySorted le l' /\ length l' = n.
Proof.
  induction n as [|n IH]; intros s u i l cap Hs Hu Hne Ho Hl Hi; cbn [hp_sort_loop].
  - exists [], (LVec (obj :: l) cap). destruct l; [|discriminate].
    rewrite blit_nil, (insert_id s id _ Hs), insert_id by exact Hu. split_and!; auto. constructor.
  - destruct l as [|x l]; [discriminate|]. simpl in Hl.
    erewrite lrun_bind_ok by (eapply hp_top_ok; exact Hs).
    erewrite lrun_bind_ok by (eapply wset_ok; [exact Hu|lia]).
    set (s1 := <[src := _]> s).
    destruct (hp_pop_ok s1 id obj x l cap) as (l1 & cap1 & Hrun & Hp & Ho1); auto.
    { unfold s1. rewrite lookup_insert_ne by congruence. exact Hs. }
    rewrite (lrun_bind_ok _ _ _ _ _ _ Hrun).
    destruct (IH (<[id := LVec (obj :: l1) cap1]> s1) (<[i := x]> u) (S i) l1 cap1)
      as (l2 & h & Hrun2 & Hp2 & Hsort & Hl2); auto.
    { apply lookup_insert. }
    { rewrite lookup_insert_ne by assumption. apply lookup_insert. }
    { apply Permutation_length in Hp. lia. }
    { rewrite insert_length. lia. }
    exists (x :: l2), h. rewrite Hrun2, blit_cons by lia. split_and!.
    + f_equal. f_equal. unfold s1. rewrite insert_insert.
      rewrite (insert_commute s id src) by assumption. rewrite insert_insert.
      rewrite (insert_commute s src id) by congruence. rewrite insert_commute; congruence || reflexivity.
    + rewrite Hp2, Hp. reflexivity.
    + constructor; [exact Hsort|]. apply List.Forall_forall. intros y Hy.
      apply (heap_ord_first _ Ho). rewrite <- Hp, <- Hp2. exact Hy.
    + simpl. lia.
Qed.

Lemma hp_sort_ok s id obj src b n u ucap :
  s !! id = None -> s !! src = Some (LVec u ucap) -> b + n <= length u ->
  exists l, lrun triv (hp_sort cmp id obj src b n) s = Ok (tt, <[src := LVec (blit u b l) ucap]> s) /\
    Permutation l (firstn n (skipn b u)) /\ StronglySorted le l /\ length l = n.
Proof.
  intros Hs Hu Hb. assert (Hne : id <> src) by congruence. unfold hp_sort.
  destruct (hp_range_ok s id obj src b n u ucap Hs Hu Hb) as (l & cap & Hrun & Hp & Ho).
  assert (Hl : length l = n).
  { rewrite (Permutation_length Hp), firstn_length, skipn_length. lia. }
  rewrite (lrun_bind_ok _ _ _ _ _ _ Hrun).
  destruct (sort_loop_ok id src obj ucap n (<[id := LVec (obj :: l) cap]> s) u b l cap)
    as (l' & h & Hrun2 & Hp2 & Hsort & Hl2); auto.
  { apply lookup_insert. } { rewrite lookup_insert_ne by assumption. exact Hu. }
  rewrite (lrun_bind_ok _ _ _ _ _ _ Hrun2). exists l'. split_and!; auto; [|etransitivity; eassumption].
  erewrite wdestroy_ok.
  - rewrite insert_insert, delete_insert_ne by assumption. rewrite delete_insert by exact Hs. reflexivity.
  - rewrite lookup_insert_ne by congruence. apply lookup_insert.
Qed.

(** *** Histories *)
Definition h_rel1 (o : hobj A) (v : lvec A) : Prop :=
  match o with
  | HeapObj l => exists g, l_seq v = g :: l /\ (heap_ord le) l
  | VecObj l => l_seq v = l
  end.
Definition h_rel (s : gmap nat (hobj A)) (ls : lworld A) : Prop :=
  forall id, match s !! id, ls !! id with
             | Some o, Some v => h_rel1 o v
             | None, None => True
             | _, _ => False
             end.

Lemma h_heap (s : gmap nat (hobj A)) ls id l : h_rel s ls -> s !! id = Some (HeapObj l) ->
  exists g cap, ls !! id = Some (LVec (g :: l) cap) /\ (heap_ord le) l.
Proof.
  intros H Hs. specialize (H id). rewrite Hs in H. destruct (ls !! id) as [[c cap]|]; [|contradiction].
  destruct H as (g & E & Ho). simpl in E. subst c. eauto.
Qed.
Lemma h_vec (s : gmap nat (hobj A)) ls id l : h_rel s ls -> s !! id = Some (VecObj l) -> exists cap, ls !! id = Some (LVec l cap).
Proof.
  intros H Hs. specialize (H id). rewrite Hs in H. destruct (ls !! id) as [[c cap]|]; [|contradiction].
  simpl in H. subst c. eauto.
Qed.
Lemma h_none (s : gmap nat (hobj A)) ls id : h_rel s ls -> s !! id = None -> ls !! id = None.
Proof. intros H Hs. specialize (H id). rewrite Hs in H. destruct (ls !! id); [contradiction|reflexivity]. Qed.
Lemma h_some (s : gmap nat (hobj A)) ls id o : h_rel s ls -> s !! id = Some o -> exists v, ls !! id = Some v.
Proof. intros H Hs. specialize (H id). rewrite Hs in H. destruct (ls !! id); [eauto|contradiction]. Qed.
Lemma h_ins (s : gmap nat (hobj A)) ls id o v : h_rel s ls -> h_rel1 o v -> h_rel (<[id := o]> s) (<[id := v]> ls).
Proof.
  intros H H1 j. destruct (decide (id = j)) as [->|Hne]; [rewrite !lookup_insert; exact H1|].
  rewrite !lookup_insert_ne by assumption. apply H.
Qed.
Lemma h_del (s : gmap nat (hobj A)) ls id : h_rel s ls -> h_rel (delete id s) (delete id ls).
Proof.
  intros H j. destruct (decide (id = j)) as [->|Hne]; [rewrite !lookup_delete; exact I|].
  rewrite !lookup_delete_ne by assumption. apply H.
Qed.

Lemma hp_move_ok s id src v g l cap :
  s !! id = Some v -> s !! src = Some (LVec (g :: l) cap) -> id <> src ->
  lrun triv (hp_move_assign id src) s = Ok (tt, <[src := LVec [g] 1]> (<[id := LVec (g :: l) cap]> s)).
Proof.
  intros Hs Hu Hne. unfold hp_move_assign. lgo wmove_ok.
  erewrite lrun_bind_ok; [|apply (wget_ok triv _ id (g :: l) cap 0 g); [|reflexivity]].
  2:{ rewrite lookup_insert_ne by congruence. apply lookup_insert. }
  erewrite wresize_fill_ok by apply lookup_insert. rewrite insert_insert. reflexivity.
Qed.

Lemma push_all_ok id l : forall s c cap, s !! id = Some (LVec c cap) ->
  exists cap', lrun triv (push_all id l) s = Ok (tt, <[id := LVec (c ++ l) cap']> s).
Proof.
  induction l as [|a l IH]; intros s c cap Hs; cbn [push_all].
  - exists cap. rewrite app_nil_r, insert_id by exact Hs. reflexivity.
  - lgo wpush_ok. destruct (IH (<[id := LVec (c ++ [a]) (cap_push (length c) cap)]> s) (c ++ [a]) _ (lookup_insert _ _ _)) as [cap' ->].
    exists cap'. rewrite insert_insert, <- app_assoc. reflexivity.
Qed.

Lemma heap_nil : (heap_ord le) [].
Proof. intros i j x y _ Hx. destruct i; discriminate. Qed.

Lemma hp_step_agree o (s : gmap nat (hobj A)) ls : h_rel s ls ->
  exists r, h_step triv le o s r /\ agree h_rel r (lrun triv (hp_step cmp o) ls).
Proof.
  intros H.
  destruct o as [id l|id|id obj|id obj src b n|id src|id src|id src|id src|id|id a|id|id|id|id|id|id obj src b n|id obj src b n];
    cbn [h_step hp_step]; destruct (s !! id) as [[l0|l0]|] eqn:Hs;
    try (exists SUnspec; split; [reflexivity|exact I]);
    try (destruct (s !! src) as [[u|u]|] eqn:Hu; try (exists SUnspec; split; [reflexivity|exact I]));
    try (destruct (h_heap _ _ _ _ H Hs) as (g & cap & Hl & Ho));
    try (destruct (h_vec _ _ _ _ H Hs) as (cap & Hl));
    try (pose proof (h_none _ _ _ H Hs) as Hl);
    try (destruct (h_heap _ _ _ _ H Hu) as (gu & ucap & Hlu & Hou));
    try (destruct (h_vec _ _ _ _ H Hu) as (ucap & Hlu));
    try (assert (Hne : id <> src) by congruence).
  - (* HVec *) eexists. split; [reflexivity|]. cbn [agree]. lgo wnew_ok.
    destruct (push_all_ok id l (<[id := LVec [] 0]> ls) [] 0 (lookup_insert _ _ _)) as [cap E].
    rewrite (lrun_bind_ok _ _ _ _ _ _ E), insert_insert. eexists. split; [reflexivity|]. apply h_ins; [exact H|reflexivity].
  - (* HVIter *) eexists. split; [reflexivity|]. cbn [agree]. lgo witer_ok. eexists. split; [reflexivity|]. exact H.
  - (* HNew *) eexists. split; [reflexivity|]. cbn [agree]. unfold hp_new.
    erewrite lrun_bind_ok by (apply wfill_ok; [exact Hl|lia]). eexists. split; [reflexivity|].
    apply h_ins; [exact H|]. exists obj. split; [reflexivity|apply heap_nil].
  - (* HRange *) destruct (Nat.leb_spec (b + n) (length u)) as [Hb|Hb]; [|exists SUnspec; split; [reflexivity|exact I]].
    destruct (hp_range_ok ls id obj src b n u ucap Hl Hlu Hb) as (l & cap & Hrun & Hp & Ho).
    eexists. split; [exists l; split_and!; [exact Hp|apply heap_ord_first, Ho|reflexivity]|].
    cbn [agree]. rewrite (lrun_bind_ok _ _ _ _ _ _ Hrun). eexists. split; [reflexivity|].
    apply h_ins; [exact H|]. exists obj. auto.
  - (* HCopyNew *) destruct triv eqn:Ht; [|exists SUnspec; split; [reflexivity|exact I]].
    eexists. split; [reflexivity|]. cbn [agree]. unfold hp_copy_new, hp_copy_assign. rewrite lrun_bind. lgo wnew_ok.
    erewrite wassign_ok; [|apply lookup_insert|rewrite lookup_insert_ne by assumption; exact Hlu|assumption|reflexivity].
    rewrite insert_insert. eexists. split; [reflexivity|]. apply h_ins; [exact H|]. exists gu. auto.
  - (* HMoveNew *) eexists. split; [reflexivity|]. cbn [agree]. unfold hp_move_new. rewrite lrun_bind. lgo wnew_ok.
    erewrite hp_move_ok; [|apply lookup_insert|rewrite lookup_insert_ne by assumption; exact Hlu|assumption].
    rewrite insert_insert. eexists. split; [reflexivity|].
    apply h_ins; [apply h_ins; [exact H|exists gu; auto]|]. exists gu. split; [reflexivity|apply heap_nil].
  - (* HAssign *) destruct (Nat.eqb_spec id src) as [->|Hne].
    { eexists. split; [reflexivity|]. cbn [agree]. unfold hp_copy_assign. lgo wassign_self.
      eexists. split; [reflexivity|]. exact H. }
    destruct triv eqn:Ht; [|exists SUnspec; split; [reflexivity|exact I]].
    eexists. split; [reflexivity|]. cbn [agree]. unfold hp_copy_assign.
    erewrite lrun_bind_ok by (eapply wassign_ok; [exact Hl|exact Hlu|assumption|reflexivity]).
    eexists. split; [reflexivity|]. apply h_ins; [exact H|]. exists gu. auto.
  - (* HMoveAssign *) destruct (Nat.eqb_spec id src) as [->|Hne]; [exists SUnspec; split; [reflexivity|exact I]|].
    eexists. split; [reflexivity|]. cbn [agree].
    rewrite (lrun_bind_ok _ _ _ _ _ _ (hp_move_ok _ _ _ _ _ _ _ Hl Hlu Hne)). eexists. split; [reflexivity|].
    apply h_ins; [apply h_ins; [exact H|exists gu; auto]|]. exists gu. split; [reflexivity|apply heap_nil].
  - (* HDestroy *) eexists. split; [reflexivity|]. cbn [agree]. lgo wdestroy_ok. eexists. split; [reflexivity|]. apply h_del, H.
  - eexists. split; [reflexivity|]. cbn [agree]. lgo wdestroy_ok. eexists. split; [reflexivity|]. apply h_del, H.
  - (* HPush *) destruct (hp_push_ok ls id g l0 cap a Hl Ho) as (l' & cap' & Hrun & Hp & Ho').
    eexists. split; [exists l'; split_and!; [exact Hp|apply heap_ord_first, Ho'|reflexivity]|].
    cbn [agree]. rewrite (lrun_bind_ok _ _ _ _ _ _ Hrun). eexists. split; [reflexivity|].
    apply h_ins; [exact H|]. exists g. auto.
  - (* HPop *) destruct l0 as [|x l0].
    { eexists. split; [reflexivity|]. cbn [agree]. rewrite lrun_bind, (hp_pop_abort _ _ _ _ Hl). reflexivity. }
    destruct (hp_pop_ok ls id g x l0 cap Hl Ho) as (l' & cap' & Hrun & Hp & Ho').
    eexists. split; [exists l'; split_and!; [exact Hp|apply heap_ord_first, Ho'|reflexivity]|].
    cbn [agree]. rewrite (lrun_bind_ok _ _ _ _ _ _ Hrun). eexists. split; [reflexivity|].
    apply h_ins; [exact H|]. exists g. auto.
  - (* HTop *) destruct l0 as [|x l0].
    { eexists. split; [reflexivity|]. cbn [agree]. rewrite lrun_bind, (hp_top_abort _ _ _ _ Hl). reflexivity. }
    eexists. split; [reflexivity|]. cbn [agree]. lgo hp_top_ok. eexists. split; [reflexivity|]. exact H.
  - (* HSize *) eexists. split; [reflexivity|]. cbn [agree]. unfold hp_size. rewrite lrun_bind.
    lgo wsize_ok. eexists. split; [reflexivity|]. exact H.
  - (* HEmpty *) eexists. split; [reflexivity|]. cbn [agree]. unfold hp_empty. rewrite lrun_bind.
    lgo wsize_ok. exists ls. split; [destruct l0; reflexivity|exact H].
  - (* HIter *) eexists. split; [exists l0; split; reflexivity|]. cbn [agree]. unfold hp_iter. rewrite lrun_bind.
    lgo witer_ok. eexists. split; [reflexivity|]. exact H.
  - (* HBuild *) destruct (Nat.leb_spec (b + n) (length u)) as [Hb|Hb]; [|exists SUnspec; split; [reflexivity|exact I]].
    destruct (hp_build_ok ls id obj src b n u ucap Hl Hlu Hb) as (l & cap & Hrun & Hp & Ho & Hln).
    eexists. split; [exists l; split_and!; [exact Hp|apply heap_ord_first, Ho|exact Ho|reflexivity]|].
    cbn [agree]. rewrite (lrun_bind_ok _ _ _ _ _ _ Hrun). eexists. split; [reflexivity|].
    apply h_ins; [apply h_ins; [exact H|exists obj; auto]|]. unfold h_rel1, blit. simpl. rewrite Hln. reflexivity.
  - (* HSort *) destruct (Nat.leb_spec (b + n) (length u)) as [Hb|Hb]; [|exists SUnspec; split; [reflexivity|exact I]].
    destruct (hp_sort_ok ls id obj src b n u ucap Hl Hlu Hb) as (l & Hrun & Hp & Hso & Hln).
    eexists. split; [exists l; split_and!; [exact Hp|exact Hso|reflexivity]|].
    cbn [agree]. rewrite (lrun_bind_ok _ _ _ _ _ _ Hrun). eexists. split; [reflexivity|].
    apply h_ins; [exact H|]. unfold h_rel1, blit. simpl. rewrite Hln. reflexivity.
Qed.

Lemma hp_run_agree ops : forall (s : gmap nat (hobj A)) ls, h_rel s ls ->
  exists r, h_run triv le ops s r /\ agree h_rel r (lrun triv (arun (hp_step cmp) ops) ls).
Proof.
  induction ops as [|o ops IH]; intros s ls H.
  - eexists. split; [reflexivity|]. exists ls. auto.
  - destruct (hp_step_agree o s ls H) as (r1 & Hst & Ha). cbn [h_run arun].
    destruct r1 as [[x s1]| |]; cbn [agree] in Ha.
    + destruct Ha as (ls1 & Hrun & H1). destruct (IH s1 ls1 H1) as (r2 & Hst2 & Ha2).
      eexists. split; [exists (SVal (x, s1)); split; [exact Hst|]; exists r2; split; [exact Hst2|reflexivity]|].
      rewrite (lrun_bind_ok _ _ _ _ _ _ Hrun), lrun_bind.
      destruct r2 as [[xs s2]| |]; cbn [agree] in Ha2 |- *; auto.
      * destruct Ha2 as (ls2 & -> & H2). exists ls2. auto.
      * rewrite Ha2. reflexivity.
    + exists SAbort. split; [exists SAbort; auto|]. cbn [agree]. rewrite lrun_bind, Ha. reflexivity.
    + exists SUnspec. split; [exists SUnspec; auto|exact I].
Qed.

(** Every history on the real heap memory. *)
Lemma heap_history ops :
  exists r, h_run triv le ops ∅ r /\
    match r with
    | SVal (rs, s) => exists w, wrun triv (arun (hp_step cmp) ops) world_init = Ok (rs, w) /\ storage_ok w
    | SAbort => wrun triv (arun (hp_step cmp) ops) world_init = Abort
    | SUnspec => True
    end.
Proof.
  destruct (hp_run_agree ops ∅ ∅) as (r & Hr & Ha); [intros id; rewrite !lookup_empty; exact I|].
  exists r. split; [exact Hr|]. pose proof (wrun_agree triv h_rel _ _ Ha) as Hw.
  destruct r as [[rs s]| |]; auto. destruct Hw as (w & Hrun & _ & Hst). eauto.
Qed.

(** *** Single calls in any state of the vectors *)
Lemma build_state (w : world A) id obj src v u b n :
  reachable triv w -> w_objs w !! id = None -> holds w src v u -> b + n <= length u ->
  exists l w', wrun triv (hp_build cmp id obj src b n) w = Ok (tt, w') /\
    Permutation l (firstn n (skipn b u)) /\ (heap_ord le) l /\
    contents w' id = Some (obj :: l) /\
    contents w' src = Some (firstn b u ++ l ++ skipn (b + n) u) /\
    (forall j, j <> id -> j <> src -> view w' !! j = view w !! j) /\ storage_ok w'.
Proof.
  intros Hre Hn Hh Hb.
  destruct (hp_build_ok (view w) id obj src b n u _ (view_none _ _ Hn) (view_holds _ _ _ _ Hh) Hb) as (l & cap & Hrun & Hp & Ho & Hl).
  destruct (client_ok _ _ _ _ _ Hre Hrun) as (w' & Hw & Hv & Hst).
  assert (Hne : id <> src) by (destruct Hh as [Hh _]; congruence).
  exists l, w'. split_and!; auto.
  - erewrite view_contents; [|rewrite Hv, lookup_insert_ne by congruence; apply lookup_insert]. reflexivity.
  - erewrite view_contents; [|rewrite Hv; apply lookup_insert]. unfold blit. rewrite Hl. reflexivity.
  - intros j H1 H2. rewrite Hv, !lookup_insert_ne by congruence. reflexivity.
Qed.

Lemma range_state (w : world A) id obj src v u b n :
  reachable triv w -> w_objs w !! id = None -> holds w src v u -> b + n <= length u ->
  exists l w', wrun triv (hp_range cmp id obj src b n) w = Ok (tt, w') /\
    Permutation l (firstn n (skipn b u)) /\ (heap_ord le) l /\
    contents w' id = Some (obj :: l) /\
    (forall j, j <> id -> view w' !! j = view w !! j) /\ storage_ok w'.
Proof.
  intros Hre Hn Hh Hb.
  destruct (hp_range_ok (view w) id obj src b n u _ (view_none _ _ Hn) (view_holds _ _ _ _ Hh) Hb) as (l & cap & Hrun & Hp & Ho).
  destruct (client_ok _ _ _ _ _ Hre Hrun) as (w' & Hw & Hv & Hst).
  exists l, w'. split_and!; auto.
  - erewrite view_contents; [|rewrite Hv; apply lookup_insert]. reflexivity.
  - intros j H1. rewrite Hv, !lookup_insert_ne by congruence. reflexivity.
Qed.

Lemma sort_state (w : world A) id obj src v u b n :
  reachable triv w -> w_objs w !! id = None -> holds w src v u -> b + n <= length u ->
  exists l w', wrun triv (hp_sort cmp id obj src b n) w = Ok (tt, w') /\
    Permutation l (firstn n (skipn b u)) /\ StronglySorted le l /\
    contents w' src = Some (firstn b u ++ l ++ skipn (b + n) u) /\
    (forall j, j <> src -> view w' !! j = view w !! j) /\ storage_ok w'.
Proof.
  intros Hre Hn Hh Hb.
  destruct (hp_sort_ok (view w) id obj src b n u _ (view_none _ _ Hn) (view_holds _ _ _ _ Hh) Hb) as (l & Hrun & Hp & Ho & Hl).
  destruct (client_ok _ _ _ _ _ Hre Hrun) as (w' & Hw & Hv & Hst).
  exists l, w'. split_and!; auto.
  - erewrite view_contents; [|rewrite Hv; apply lookup_insert]. unfold blit. rewrite Hl. reflexivity.
  - intros j H1. rewrite Hv, !lookup_insert_ne by congruence. reflexivity.
Qed.

Lemma move_state (w : world A) id src v u g l :
  reachable triv w -> holds w id v u ->
  forall vs, holds w src vs (g :: l) -> id <> src ->
  exists w', wrun triv (hp_move_assign id src) w = Ok (tt, w') /\
    contents w' id = Some (g :: l) /\ contents w' src = Some [g] /\
    (forall j, j <> id -> j <> src -> view w' !! j = view w !! j) /\ storage_ok w'.
Proof.
  intros Hre Hh vs Hs Hne.
  pose proof (hp_move_ok (view w) id src _ g l _ (view_holds _ _ _ _ Hh) (view_holds _ _ _ _ Hs) Hne) as Hrun.
  destruct (client_ok _ _ _ _ _ Hre Hrun) as (w' & Hw & Hv & Hst).
  exists w'. split_and!; auto.
  - erewrite view_contents; [|rewrite Hv, lookup_insert_ne by congruence; apply lookup_insert]. reflexivity.
  - erewrite view_contents; [|rewrite Hv; apply lookup_insert]. reflexivity.
  - intros j H1 H2. rewrite Hv, !lookup_insert_ne by congruence. reflexivity.
Qed.
End HeapP.
