(** Stacks with extremum over any container follow their specification. *)
From Verif Require Import Base Alloc AllocProofs VectorModel VectorSpec VecProg VectorProofs VectorWorld VectorExtra Adapter Hist ListModel ListSpec DequeModel DequeSpec
  StackModel StackSpec StackProofs StackOtherModel StackOtherSpec StackOther XStackModel XStackSpec.
From Verif Require ListHist ListHist2 ListHist3 DequeHist DequeHist2.
Local Open Scope nat_scope.

Section Inner.
Context {A : Type}.
Notation sw := (gmap nat (list A * bool)).
(** The stack's calls, over whichever container. *)
Definition ki_step (b : base) (o : kop A) (s : sw) : sres (out A * sw) :=
  let live (id : nat) (k : list A -> bool -> sres (out A * sw)) := match s !! id with Some (l, p) => k l p | None => SUnspec end in
  let copy (id : nat) (l : list A) (p : bool) : sres (out A * sw) := if can_copy b l p then SVal (RUnit, <[id := (l, some_pushed l)]> s) else SUnspec in
  let move (id src : nat) (l : list A) : sres (out A * sw) := if can_move b l then SVal (RUnit, <[src := ([], false)]> (<[id := (l, some_pushed l)]> s)) else SUnspec in
  match o with
  | KNew id => match s !! id with None => SVal (RUnit, <[id := ([], false)]> s) | Some _ => SUnspec end
  | KAssign id src => live id (fun _ _ => live src (fun l p => if Nat.eqb id src then SVal (RUnit, s) else copy id l p))
  | KMoveAssign id src => live id (fun _ _ => live src (fun l _ => if Nat.eqb id src then SVal (RUnit, s) else move id src l))
  | KDestroy id => live id (fun _ _ => SVal (RUnit, delete id s))
  | KPush id a => live id (fun l _ => SVal (RUnit, <[id := (a :: l, true)]> s))
  | KPop id => live id (fun l p => match l with [] => no_element b | _ :: rest => SVal (RUnit, <[id := (rest, p)]> s) end)
  | KTop id => live id (fun l _ => match l with [] => no_element b | newest :: _ => SVal (RVal newest, s) end)
  | KEmpty id => live id (fun l _ => SVal (RBool (negb (some_pushed l)), s))
  | KClear id => live id (fun _ _ => SVal (RUnit, <[id := ([], false)]> s))
  | KIter id => live id (fun l p => match b with Over OnDeque => if p then SVal (RList (rev l), s) else SUnspec | _ => SVal (RList (rev l), s) end)
  | _ => SUnspec
  end.
Lemma ki_other u o s : ki_step (Over u) o s = SUnspec \/ ki_step (Over u) o s = ko_step u o s.
Proof.
  destruct o as [id|id src|id src|id src|id src|id|id a|id|id|id|id|id|id]; cbn [ki_step ko_step]; auto; right;
    repeat match goal with |- context [match s !! ?i with _ => _ end] => destruct (s !! i) as [[[|? ?] []]|] end; try reflexivity;
    try (destruct (Nat.eqb id src); [reflexivity|]); destruct u; reflexivity.
Qed.
Lemma ki_vector triv o s : match ki_step (OverVector triv) o s with
  | SVal (r, s') => k_step triv o (fst <$> s) = SVal (r, fst <$> s') | SAbort => k_step triv o (fst <$> s) = SAbort | SUnspec => True end.
Proof.
  destruct o as [id|id src|id src|id src|id src|id|id a|id|id|id|id|id|id]; cbn [ki_step k_step]; auto; rewrite ?lookup_fmap;
    repeat match goal with |- context [match s !! ?i with _ => _ end] => destruct (s !! i) as [[[|? ?] ?]|] end; cbn [fmap option_fmap option_map fst]; try exact I;
    try (destruct (Nat.eqb id src); [reflexivity|]); cbn [can_copy can_move some_pushed negb length Nat.eqb no_element];
    rewrite ?orb_true_r, ?orb_false_r; try (destruct triv; [|exact I]); rewrite ?fmap_insert, ?fmap_delete; reflexivity.
Qed.
End Inner.

Lemma no_element_cases b {X} : no_element (X := X) b = SUnspec \/ no_element (X := X) b = SAbort.
Proof. destruct b as [triv|[| |]]; auto. Qed.

Section X.
Context {A S : Type} (kstep : kop A -> M S (out A)) (b : base) (cmp eqb : A -> A -> bool) (mvd : A -> A).
Notation sw := (gmap nat (list A * bool)).
Implicit Types (s t : sw) (xs : gmap nat A) (l c : list A) (p : bool).
Context (R : sw -> S -> Prop) (F : Prop).
Context (k_ok : forall o s w, R s w -> magree_or R (fun _ => F) (ki_step b o s) (kstep o w)).
Context (eqb_refl : forall a, eqb a a = true).

(** [Enc l c x]: the stack holds [c] and mXValue_d is [x] when the elements are [l]. *)
Inductive Enc : list A -> list A -> A -> Prop :=
| Enc_nil g : Enc [] [] g
| Enc_new a l c x : Enc l c x -> l = [] \/ cmp a x = true -> Enc (a :: l) (a :: x :: c) a
| Enc_old a l c x : Enc l c x -> l <> [] -> cmp a x = false -> eqb x a = false -> Enc (a :: l) (a :: c) x.
Lemma enc_ext l c x : Enc l c x -> l <> [] -> extremum cmp l = Some x.
Proof.
  induction 1 as [g|a l c x H IH Ha|a l c x H IH Hl Ha He]; [congruence| |]; intros _; cbn [extremum].
  - destruct l as [|a' l]; [reflexivity|]. rewrite IH by discriminate. destruct Ha as [Ha|Ha]; [discriminate|]. rewrite Ha. reflexivity.
  - rewrite (IH Hl), Ha. reflexivity.
Qed.
Lemma enc_pushed l c x : Enc l c x -> some_pushed c = some_pushed l.
Proof. destruct 1; reflexivity. Qed.

Lemma enc_length l c x : Enc l c x -> l <> [] -> length l < length c.
Proof. induction 1 as [g|a l c x H IH Ha|a l c x H IH Hl Ha He]; [congruence| |]; intros _; cbn [length]; [|specialize (IH Hl); lia]. destruct l as [|a' l]; [cbn; lia|specialize (IH ltac:(discriminate)); cbn in *; lia]. Qed.

Definition rel1 (o : option (list A * bool)) (i : option (list A * bool)) (x : option A) : Prop :=
  match o, i, x with
  | None, None, None => True
  | Some (l, p), Some (c, p'), Some x => p' = p /\ Enc l c x
  | _, _, _ => False
  end.
Definition xR (s : sw) (w : S * gmap nat A) : Prop := exists t, R t (fst w) /\ forall id, rel1 (s !! id) (t !! id) (snd w !! id).

Lemma rel_some s t xs id l p : (forall id, rel1 (s !! id) (t !! id) (xs !! id)) -> s !! id = Some (l, p) -> exists c x, t !! id = Some (c, p) /\ xs !! id = Some x /\ Enc l c x.
Proof.
  intros H E. specialize (H id). rewrite E in H. unfold rel1 in H. destruct (t !! id) as [[c p']|]; [|contradiction]. destruct (xs !! id) as [x|]; [|contradiction].
  destruct H as [-> H]. eauto.
Qed.
Lemma rel_none s t xs id : (forall id, rel1 (s !! id) (t !! id) (xs !! id)) -> s !! id = None -> t !! id = None /\ xs !! id = None.
Proof. intros H E. specialize (H id). rewrite E in H. unfold rel1 in H. destruct (t !! id), (xs !! id); try contradiction. auto. Qed.
Lemma rel_set s t xs id l p c x : (forall id, rel1 (s !! id) (t !! id) (xs !! id)) -> Enc l c x ->
  forall j, rel1 (<[id := (l, p)]> s !! j) (<[id := (c, p)]> t !! j) (<[id := x]> xs !! j).
Proof. intros H HE j. destruct (decide (id = j)) as [->|Hne]; [rewrite !lookup_insert; split; [reflexivity|exact HE]|rewrite !lookup_insert_ne by assumption; apply H]. Qed.
Lemma rel_keep s t xs id l p c x : (forall id, rel1 (s !! id) (t !! id) (xs !! id)) -> xs !! id = Some x -> Enc l c x ->
  forall j, rel1 (<[id := (l, p)]> s !! j) (<[id := (c, p)]> t !! j) (xs !! j).
Proof. intros H Hx HE. rewrite <- (insert_id xs id x Hx). apply rel_set; assumption. Qed.

(** One call of the stack inside a call. *)
Notation agr := (magree_or xR (fun _ => F)).
Lemma mo_bind {X Y} (m : M (S * gmap nat A) X) (k : X -> M (S * gmap nat A) Y) w y s1 z s2 :
  agr (SVal (y, s1)) (m w) -> (forall w1, xR s1 w1 -> agr (SVal (z, s2)) (k y w1)) -> agr (SVal (z, s2)) (bind m k w).
Proof. intros [(w1 & E & H)|[E H]] Hk; unfold bind; rewrite E; [apply Hk, H|right; auto]. Qed.
Lemma stk_go (o : kop A) t w xs r t' {X} (k : out A -> M (S * gmap nat A) X) z s2 :
  R t w -> ki_step b o t = SVal (r, t') -> (forall w', R t' w' -> agr (SVal (z, s2)) (k r (w', xs))) -> agr (SVal (z, s2)) (bind (stk kstep o) k (w, xs)).
Proof.
  intros HR E Hk. pose proof (k_ok o t w HR) as H. rewrite E in H. unfold bind, stk. cbn [fst snd]. destruct H as [(w' & -> & HR')|[-> HF]]; [apply Hk, HR'|right; auto].
Qed.
Lemma stk_last (o : kop A) t w xs r t' s' : R t w -> ki_step b o t = SVal (r, t') -> (forall id, rel1 (s' !! id) (t' !! id) (xs !! id)) -> agr (SVal (r, s')) (stk kstep o (w, xs)).
Proof.
  intros HR E Hk. pose proof (k_ok o t w HR) as H. rewrite E in H. unfold stk. cbn [fst snd]. destruct H as [(w' & -> & HR')|[-> HF]]; [left|right; auto].
  eexists. split; [reflexivity|]. eexists. eauto.
Qed.
Lemma stk_abort (o : kop A) t w xs : R t w -> ki_step b o t = SAbort -> stk kstep o (w, xs) = Abort.
Proof. intros HR E. pose proof (k_ok o t w HR) as H. rewrite E in H. unfold stk. cbn [fst]. rewrite H. reflexivity. Qed.
Lemma bind_assoc {W X Y Z} (m : M W X) (f : X -> M W Y) (g : Y -> M W Z) w : bind (bind m f) g w = bind m (fun x => bind (f x) g) w.
Proof. unfold bind. destruct (m w) as [[x w']| | |]; reflexivity. Qed.
Lemma get_x_ok {X} id (w : S) xs x (k : A -> M (S * gmap nat A) X) : xs !! id = Some x -> bind (get_x id) k (w, xs) = k x (w, xs).
Proof. intros E. unfold bind, get_x. cbn [snd]. rewrite E. reflexivity. Qed.
Lemma put_x_ok {X} id (w : S) xs x (k : unit -> M (S * gmap nat A) X) : bind (put_x id x) k (w, xs) = k tt (w, <[id := x]> xs).
Proof. reflexivity. Qed.
Lemma done {X} (y : X) t w s xs : R t w -> (forall id, rel1 (s !! id) (t !! id) (xs !! id)) -> agr (SVal (y, s)) (ret y (w, xs)).
Proof. intros HR H. left. eexists. split; [reflexivity|]. exists t. auto. Qed.

Lemma new_ok s w id g : xR s w -> s !! id = None -> agr (SVal (tt, <[id := ([], false)]> s)) (e_new kstep id g w).
Proof.
  destruct w as [w xs]. intros (t & HR & H) E. cbn [fst snd] in *. destruct (rel_none _ _ _ _ H E) as [Et Ex]. unfold e_new.
  eapply stk_go; [exact HR|cbn [ki_step]; rewrite Et; reflexivity|]. intros w' HR'. left. eexists. split; [reflexivity|]. eexists. split; [exact HR'|]. apply rel_set; [exact H|constructor].
Qed.
Lemma assign_ok s w id src l0 p0 l p : xR s w -> s !! id = Some (l0, p0) -> s !! src = Some (l, p) -> id <> src -> can_copy b l p = true ->
  agr (SVal (tt, <[id := (l, some_pushed l)]> s)) (e_assign kstep id src w).
Proof.
  destruct w as [w xs]. intros (t & HR & H) E E2 Hne Hc. cbn [fst snd] in *. destruct (rel_some _ _ _ _ _ _ H E) as (c0 & x0 & Et & Ex & _). destruct (rel_some _ _ _ _ _ _ H E2) as (c & x & Et2 & Ex2 & He).
  unfold e_assign. rewrite (get_x_ok _ _ _ _ _ Ex), (get_x_ok _ _ _ _ _ Ex2). rewrite (proj2 (Nat.eqb_neq id src) Hne), put_x_ok.
  eapply stk_go; [exact HR|cbn [ki_step]; rewrite Et, Et2, (proj2 (Nat.eqb_neq id src) Hne)|].
  - unfold can_copy in *. rewrite (enc_pushed _ _ _ He), Hc. reflexivity.
  - intros w' HR'. eapply done; [exact HR'|]. apply rel_set; assumption.
Qed.
Lemma move_ok s w id src l0 p0 l p : xR s w -> s !! id = Some (l0, p0) -> s !! src = Some (l, p) -> id <> src -> can_move b l = true ->
  agr (SVal (tt, <[src := ([], false)]> (<[id := (l, some_pushed l)]> s))) (e_move kstep mvd id src w).
Proof.
  destruct w as [w xs]. intros (t & HR & H) E E2 Hne Hc. cbn [fst snd] in *. destruct (rel_some _ _ _ _ _ _ H E) as (c0 & x0 & Et & Ex & _). destruct (rel_some _ _ _ _ _ _ H E2) as (c & x & Et2 & Ex2 & He).
  unfold e_move. rewrite (get_x_ok _ _ _ _ _ Ex), (get_x_ok _ _ _ _ _ Ex2). rewrite (proj2 (Nat.eqb_neq id src) Hne), !put_x_ok.
  eapply stk_go; [exact HR|cbn [ki_step]; rewrite Et, Et2, (proj2 (Nat.eqb_neq id src) Hne)|].
  - unfold can_move in *. rewrite (enc_pushed _ _ _ He), Hc. reflexivity.
  - intros w' HR'. eapply done; [exact HR'|]. apply rel_set; [apply rel_set; assumption|constructor].
Qed.
Ltac lift_unit := eapply mo_bind; [eassumption|let w1 := fresh in let Hw1 := fresh in intros w1 Hw1; left; eexists; split; [reflexivity|exact Hw1]].

Lemma push_ok s w id l p a : xR s w -> s !! id = Some (l, p) -> (forall x, extremum cmp l = Some x -> eqb x a = false) ->
  agr (SVal (tt, <[id := (a :: l, true)]> s)) (e_push kstep cmp id a w).
Proof.
  destruct w as [w xs]. intros (t & HR & H) E Hx. cbn [fst snd] in *. destruct (rel_some _ _ _ _ _ _ H E) as (c & x & Et & Ex & He). unfold e_push, stk_bool. rewrite bind_assoc.
  eapply stk_go; [exact HR|cbn [ki_step]; rewrite Et; reflexivity|]. intros w1 HR1. unfold bind at 1. cbn [ret]. rewrite (get_x_ok _ _ _ _ _ Ex), (enc_pushed _ _ _ He).
  destruct (negb (some_pushed l) || cmp a x) eqn:Hc.
  - rewrite bind_assoc. eapply stk_go; [exact HR1|cbn [ki_step]; rewrite Et; reflexivity|]. intros w2 HR2. rewrite put_x_ok.
    eapply stk_go; [exact HR2|cbn [ki_step]; rewrite lookup_insert; reflexivity|]. intros w3 HR3. eapply done; [exact HR3|]. rewrite insert_insert. apply rel_set; [exact H|].
    constructor; [exact He|]. apply orb_true_iff in Hc as [Hc|Hc]; [left; destruct l; [reflexivity|discriminate]|right; exact Hc].
  - apply orb_false_iff in Hc as [Hl Hc]. assert (Hne : l <> []) by (destruct l; [discriminate|discriminate]). unfold bind at 1. cbn [ret].
    eapply stk_go; [exact HR1|cbn [ki_step]; rewrite Et; reflexivity|]. intros w2 HR2. eapply done; [exact HR2|]. eapply rel_keep; [exact H|exact Ex|].
    constructor; [exact He|exact Hne|exact Hc|]. apply Hx, (enc_ext _ _ _ He Hne).
Qed.
Lemma pop_ok s w id a l p : xR s w -> s !! id = Some (a :: l, p) -> agr (SVal (tt, <[id := (l, p)]> s)) (e_pop kstep eqb id w).
Proof.
  destruct w as [w xs]. intros (t & HR & H) E. cbn [fst snd] in *. destruct (rel_some _ _ _ _ _ _ H E) as (c & x & Et & Ex & He). unfold e_pop, stk_val. rewrite bind_assoc.
  inversion He as [|a' l' c' x' He' Ha Hl Hc' Hx'|a' l' c' x' He' Hl' Ha Hq]; subst.
  - eapply stk_go; [exact HR|cbn [ki_step]; rewrite Et; reflexivity|]. intros w1 HR1. unfold bind at 1. cbn [ret].
    eapply stk_go; [exact HR1|cbn [ki_step]; rewrite Et; reflexivity|]. intros w2 HR2. rewrite (get_x_ok _ _ _ _ _ Ex), eqb_refl, bind_assoc.
    eapply stk_go; [exact HR2|cbn [ki_step]; rewrite lookup_insert; reflexivity|]. intros w3 HR3. unfold bind at 1. cbn [ret]. rewrite put_x_ok.
    eapply stk_go; [exact HR3|cbn [ki_step]; rewrite lookup_insert; reflexivity|]. intros w4 HR4. eapply done; [exact HR4|]. rewrite insert_insert. apply rel_set; assumption.
  - eapply stk_go; [exact HR|cbn [ki_step]; rewrite Et; reflexivity|]. intros w1 HR1. unfold bind at 1. cbn [ret].
    eapply stk_go; [exact HR1|cbn [ki_step]; rewrite Et; reflexivity|]. intros w2 HR2. rewrite (get_x_ok _ _ _ _ _ Ex), Hq. eapply done; [exact HR2|]. eapply rel_keep; eassumption.
Qed.
Lemma e_step_ok o (s : sw) w : xR s w -> agr (es_step b cmp eqb o s) (e_step kstep cmp eqb mvd o w).
Proof.
  intros Hw. destruct o as [id g|id src|id src|id src|id src|id|id a|id|id|id|id|id|id]; cbn [es_step e_step].
  - destruct (s !! id) as [[l p]|] eqn:E; [exact I|]. pose proof (new_ok _ _ _ g Hw E). lift_unit.
  - destruct (s !! id) as [[l p]|] eqn:E; [exact I|]. destruct (s !! src) as [[l p]|] eqn:E2; [|exact I]. destruct (can_copy b l p) eqn:Hc; [|exact I].
    destruct w as [w xs]. destruct (Hw) as (t & HR & H). destruct (rel_some _ _ _ _ _ _ H E2) as (c & x & Et2 & Ex2 & He). cbn [snd] in Ex2. rewrite (get_x_ok _ _ _ _ _ Ex2).
    assert (Hne : id <> src) by congruence. eapply mo_bind; [exact (new_ok _ _ _ x Hw E)|]. intros w1 Hw1.
    assert (E3 : <[id := ([], false)]> s !! src = Some (l, p)) by (rewrite lookup_insert_ne by exact Hne; exact E2).
    pose proof (assign_ok _ _ _ _ _ _ _ _ Hw1 (lookup_insert _ _ _) E3 Hne Hc) as HA. rewrite insert_insert in HA. lift_unit.
  - destruct (s !! id) as [[l p]|] eqn:E; [exact I|]. destruct (s !! src) as [[l p]|] eqn:E2; [|exact I]. destruct (can_move b l) eqn:Hc; [|exact I].
    destruct w as [w xs]. destruct (Hw) as (t & HR & H). destruct (rel_some _ _ _ _ _ _ H E2) as (c & x & Et2 & Ex2 & He). cbn [snd] in Ex2. rewrite (get_x_ok _ _ _ _ _ Ex2).
    assert (Hne : id <> src) by congruence. eapply mo_bind; [exact (new_ok _ _ _ x Hw E)|]. intros w1 Hw1.
    assert (E3 : <[id := ([], false)]> s !! src = Some (l, p)) by (rewrite lookup_insert_ne by exact Hne; exact E2).
    pose proof (move_ok _ _ _ _ _ _ _ _ Hw1 (lookup_insert _ _ _) E3 Hne Hc) as HA. rewrite insert_insert in HA. lift_unit.
  - destruct (s !! id) as [[l0 p0]|] eqn:E; [|exact I]. destruct (s !! src) as [[l p]|] eqn:E2; [|exact I]. destruct (Nat.eqb_spec id src) as [->|Hne].
    + destruct w as [w xs]. destruct (Hw) as (t & HR & H). destruct (rel_some _ _ _ _ _ _ H E2) as (c & x & Et2 & Ex2 & He). cbn [snd] in Ex2. unfold e_assign. rewrite bind_assoc, (get_x_ok _ _ _ _ _ Ex2), bind_assoc, (get_x_ok _ _ _ _ _ Ex2), Nat.eqb_refl.
      left. eexists. split; [reflexivity|exact Hw].
    + destruct (can_copy b l p) eqn:Hc; [|exact I]. pose proof (assign_ok _ _ _ _ _ _ _ _ Hw E E2 Hne Hc). lift_unit.
  - destruct (s !! id) as [[l0 p0]|] eqn:E; [|exact I]. destruct (s !! src) as [[l p]|] eqn:E2; [|exact I]. destruct (Nat.eqb_spec id src) as [->|Hne].
    + destruct w as [w xs]. destruct (Hw) as (t & HR & H). destruct (rel_some _ _ _ _ _ _ H E2) as (c & x & Et2 & Ex2 & He). cbn [snd] in Ex2. unfold e_move. rewrite bind_assoc, (get_x_ok _ _ _ _ _ Ex2), bind_assoc, (get_x_ok _ _ _ _ _ Ex2), Nat.eqb_refl.
      left. eexists. split; [reflexivity|exact Hw].
    + destruct (can_move b l) eqn:Hc; [|exact I]. pose proof (move_ok _ _ _ _ _ _ _ _ Hw E E2 Hne Hc). lift_unit.
  - destruct (s !! id) as [[l p]|] eqn:E; [|exact I]. destruct w as [w xs]. destruct Hw as (t & HR & H). destruct (rel_some _ _ _ _ _ _ H E) as (c & x & Et & Ex & He). cbn [fst snd] in *.
    eapply stk_go; [exact HR|cbn [ki_step]; rewrite Et; reflexivity|]. intros w' HR'. left. eexists. split; [reflexivity|]. eexists. split; [exact HR'|]. cbn [snd].
    intros j. destruct (decide (id = j)) as [->|Hne]; [rewrite !lookup_delete; exact I|rewrite !lookup_delete_ne by exact Hne; apply H].
  - destruct (s !! id) as [[l p]|] eqn:E; [|exact I].
    assert (HX : (forall x, extremum cmp l = Some x -> eqb x a = false) -> agr (SVal (RUnit (A := A), <[id := (a :: l, true)]> s)) (bind (e_push kstep cmp id a) (fun _ => ret (RUnit (A := A))) w)).
    { intros Hx. pose proof (push_ok _ _ _ _ _ _ Hw E Hx). lift_unit. }
    destruct (extremum cmp l) as [x|] eqn:Ee; [|apply HX; discriminate]. destruct (eqb x a) eqn:Eq; [exact I|]. apply HX. intros y [= <-]. exact Eq.
  - destruct (s !! id) as [[[|a l] p]|] eqn:E; [| |exact I].
    + destruct w as [w xs]. destruct Hw as (t & HR & H). destruct (rel_some _ _ _ _ _ _ H E) as (c & x & Et & Ex & He). inversion He; subst. cbn [fst snd] in *.
      assert (Ek : ki_step b (KTop id) t = no_element b) by (cbn [ki_step]; rewrite Et; reflexivity).
      destruct (no_element_cases b (X := out A * sw)) as [En|En]; rewrite En in *; [exact I|]; cbn [magree_or]; unfold e_pop, stk_val; rewrite !bind_assoc; apply bind_abort, (stk_abort _ _ _ _ HR Ek).
    + pose proof (pop_ok _ _ _ _ _ _ Hw E). lift_unit.
  - destruct (s !! id) as [[[|a l] p]|] eqn:E; [| |exact I].
    + destruct w as [w xs]. destruct Hw as (t & HR & H). destruct (rel_some _ _ _ _ _ _ H E) as (c & x & Et & Ex & He). inversion He; subst. cbn [fst snd] in *.
      assert (Ek : ki_step b (KTop id) t = no_element b) by (cbn [ki_step]; rewrite Et; reflexivity).
      destruct (no_element_cases b (X := out A * sw)) as [En|En]; rewrite En in *; [exact I|]; cbn [magree_or]; apply (stk_abort _ _ _ _ HR Ek).
    + destruct w as [w xs]. destruct Hw as (t & HR & H). destruct (rel_some _ _ _ _ _ _ H E) as (c & x & Et & Ex & He). cbn [fst snd] in *.
      inversion He; subst; (eapply stk_last; [exact HR|cbn [ki_step]; rewrite Et; reflexivity|exact H]).
  - destruct (s !! id) as [[l p]|] eqn:E; [|exact I]. destruct (extremum cmp l) as [y|] eqn:Ee; [|exact I]. destruct w as [w xs]. destruct (Hw) as (t & HR & H). destruct (rel_some _ _ _ _ _ _ H E) as (c & x & Et & Ex & He).
    cbn [fst snd] in *. rewrite (get_x_ok _ _ _ _ _ Ex). assert (Hne : l <> []) by (intros ->; discriminate). rewrite (enc_ext _ _ _ He Hne) in Ee. injection Ee as <-. left. eexists. split; [reflexivity|exact Hw].
  - destruct (s !! id) as [[l p]|] eqn:E; [|exact I]. destruct w as [w xs]. destruct Hw as (t & HR & H). destruct (rel_some _ _ _ _ _ _ H E) as (c & x & Et & Ex & He). cbn [fst snd] in *.
    eapply stk_last; [exact HR|cbn [ki_step]; rewrite Et, (enc_pushed _ _ _ He); reflexivity|exact H].
  - destruct (s !! id) as [[l p]|] eqn:E; [|exact I]. destruct w as [w xs]. destruct Hw as (t & HR & H). destruct (rel_some _ _ _ _ _ _ H E) as (c & x & Et & Ex & He). cbn [fst snd] in *.
    eapply stk_last; [exact HR|cbn [ki_step]; rewrite Et; reflexivity|]. eapply rel_keep; [exact H|exact Ex|constructor].
  - exact I.
Qed.
(** What is wrong: iteration, and pushing the extremum again. *)
Context (no_stop : ~ F).
Lemma stk_ok (o : kop A) t w xs r t' : R t w -> ki_step b o t = SVal (r, t') -> exists w', stk kstep o (w, xs) = Ok (r, (w', xs)) /\ R t' w'.
Proof. intros HR E. pose proof (k_ok o t w HR) as H. rewrite E in H. unfold stk. cbn [fst snd]. destruct H as [(w' & -> & HR')|[_ HF]]; [eauto|destruct (no_stop HF)]. Qed.
Lemma iter_shows s w id a l : xR s w -> s !! id = Some (a :: l, true) ->
  exists more w', e_step kstep cmp eqb mvd (EIter id) w = Ok (RList more, w') /\ length (a :: l) < length more.
Proof.
  destruct w as [w xs]. intros (t & HR & H) E. destruct (rel_some _ _ _ _ _ _ H E) as (c & x & Et & Ex & He). cbn [fst snd] in *.
  assert (Hk : ki_step b (KIter id) t = SVal (RList (rev c), t)). { cbn [ki_step]. rewrite Et. clear. destruct b as [|[| |]]; reflexivity. }
  destruct (stk_ok _ _ _ xs _ _ HR Hk) as (w' & E1 & _). exists (rev c), (w', xs). cbn [e_step]. rewrite E1. split; [reflexivity|]. rewrite rev_length. eapply enc_length; [exact He|discriminate].
Qed.
Lemma repeat_shows s w id a l p x : (forall a, cmp a a = false) -> xR s w -> s !! id = Some (a :: l, p) -> extremum cmp (a :: l) = Some x ->
  exists w', mrun (e_step kstep cmp eqb mvd) [EPush id x; EPop id; EExt id] w = Ok ([RUnit; RUnit; RVal a], w').
Proof.
  intros Hi. destruct w as [w xs]. intros (t & HR & H) E Ee. destruct (rel_some _ _ _ _ _ _ H E) as (c & x' & Et & Ex & He). cbn [fst snd] in *.
  rewrite (enc_ext _ _ _ He ltac:(discriminate)) in Ee. injection Ee as ->. assert (exists c', c = a :: c') as [c' ->] by (inversion He; eauto). clear He.
  assert (E1 : exists w1, e_step kstep cmp eqb mvd (EPush id x) (w, xs) = Ok (RUnit, (w1, xs)) /\ R (<[id := (x :: a :: c', true)]> t) w1).
  { destruct (stk_ok (KEmpty id) t w xs (RBool false) t HR) as (w1 & E1 & HR1); [cbn [ki_step]; rewrite Et; reflexivity|].
    destruct (stk_ok (KPush id x) t w1 xs RUnit (<[id := (x :: a :: c', true)]> t) HR1) as (w2 & E2 & HR2); [cbn [ki_step]; rewrite Et; reflexivity|].
    exists w2. split; [|exact HR2]. cbn [e_step]. unfold e_push, stk_bool. rewrite !bind_assoc, (bind_ok _ _ _ _ _ E1). unfold bind at 1. cbn [ret]. rewrite bind_assoc, (get_x_ok _ _ _ _ _ Ex), Hi.
    cbn [orb]. unfold bind at 1. cbn [ret]. unfold bind. cbn. rewrite E2. reflexivity. }
  destruct E1 as (w1 & E1 & HR1). set (t1 := <[id := (x :: a :: c', true)]> t) in *. assert (Et1 : t1 !! id = Some (x :: a :: c', true)) by apply lookup_insert.
  assert (E2 : exists w2, e_step kstep cmp eqb mvd (EPop id) (w1, xs) = Ok (RUnit, (w2, <[id := a]> xs))).
  { destruct (stk_ok (KTop id) t1 w1 xs (RVal x) t1 HR1) as (w2 & E2 & HR2); [cbn [ki_step]; rewrite Et1; reflexivity|].
    destruct (stk_ok (KPop id) t1 w2 xs RUnit (<[id := (a :: c', true)]> t1) HR2) as (w3 & E3 & HR3); [cbn [ki_step]; rewrite Et1; reflexivity|].
    destruct (stk_ok (KTop id) _ w3 xs (RVal a) (<[id := (a :: c', true)]> t1) HR3) as (w4 & E4 & HR4); [cbn [ki_step]; rewrite lookup_insert; reflexivity|].
    destruct (stk_ok (KPop id) _ w4 (<[id := a]> xs) RUnit (<[id := (c', true)]> (<[id := (a :: c', true)]> t1)) HR4) as (w5 & E5 & HR5); [cbn [ki_step]; rewrite lookup_insert; reflexivity|].
    exists w5. cbn [e_step]. unfold e_pop, stk_val. unfold bind. rewrite E2. cbn [ret]. rewrite E3. unfold get_x at 1. cbn [snd]. rewrite Ex, eqb_refl. rewrite E4. cbn [ret]. unfold put_x. cbn [fst snd]. rewrite E5. reflexivity. }
  destruct E2 as (w2 & E2). cbn [mrun]. exists (w2, <[id := a]> xs). unfold bind. rewrite E1, E2. cbn [e_step]. unfold get_x, bind. cbn [snd]. rewrite lookup_insert. reflexivity.
Qed.
End X.

Section All.
Context {A : Type} (cmp eqb : A -> A -> bool) (mvd : A -> A).
Notation sw := (gmap nat (list A * bool)).
Implicit Types (s t : sw).
Definition cR (c : cont A) : sw -> cstate c -> Prop :=
  match c with
  | CVector triv => fun t w => exists ls, VectorWorld.winv w ls /\ k_rel (fst <$> t) ls
  | CDeque N => kdR N
  | CDList _ pol => klR (ListHist2.dlR pol)
  | CSList _ pol => klR (ListHist3.slR pol)
  end.
Lemma cR_init c : usable c -> cR c ∅ (cinit c).
Proof.
  destruct c as [triv|N|junk pol|junk pol]; cbn [usable cR cinit]; intros H.
  - exists ∅. split; [apply winv_init|]. intros id. rewrite fmap_empty, !lookup_empty. reflexivity.
  - unfold kdR. rewrite fmap_empty. apply DequeHist2.winv_empty.
  - unfold klR. rewrite fmap_empty. apply ListHist2.dlR_init, H.
  - unfold klR. rewrite fmap_empty. apply ListHist3.slR_init, H.
Qed.
Lemma other_ok {W} (R : sw -> W -> Prop) (F : sw -> Prop) (G : Prop) u (kstep : kop A -> M W (out A)) o t w :
  (forall s', F s' -> G) -> magree_or R F (ko_step u o t) (kstep o w) -> magree_or R (fun _ => G) (ki_step (Over u) o t) (kstep o w).
Proof.
  intros HG H. destruct (ki_other u o t) as [->| ->]; [exact I|]. unfold magree_or in *. destruct (ko_step u o t) as [[r t']| |]; [|exact H|exact I].
  destruct H as [H|[E HF]]; [left; exact H|right; split; [exact E|apply (HG _ HF)]].
Qed.
Lemma cR_ok c : usable c -> forall o t w, cR c t w -> magree_or (cR c) (fun _ => may_stop c) (ki_step (over c) o t) (cstep c o w).
Proof.
  destruct c as [triv|N|junk pol|junk pol]; cbn [usable cR cstate cstep over may_stop]; intros HU o t w Hw.
  - destruct Hw as (ls & Hw & Hk). pose proof (ki_vector triv o t) as Hv. pose proof (st_step_agree triv o _ _ Hk) as Ha. pose proof (wrun_sim triv (st_step o) w ls Hw) as Hs.
    unfold magree_or. destruct (ki_step (OverVector triv) o t) as [[r t']| |]; [|rewrite Hv in Ha; cbn in Ha; rewrite Ha in Hs; exact Hs|exact I]. left.
    rewrite Hv in Ha. cbn in Ha. destruct Ha as (ls' & El & Hk'). rewrite El in Hs. destruct Hs as (w' & E & Hw'). eauto.
  - apply (other_ok (kdR N) (fun _ => False) False OnDeque); [tauto|]. pose proof (ko_deque N HU o t w Hw) as H. unfold magree, magree_or in *.
    destruct (ko_step OnDeque o t) as [[r t']| |]; [left; exact H|exact H|exact I].
  - eapply (other_ok _ _ _ OnDList); [|exact (ko_list true (dl_step junk) (ListHist2.dlR pol) pol (ListHist2.dl_step_or junk pol) (fun id l a ss w => dl_back_R junk pol id l a ss w) o t w Hw)].
    intros s' Hr Hg. exact (grants_refuses _ _ Hg Hr).
  - eapply (other_ok _ _ _ OnSList); [|exact (ko_list false (sl_step junk) (ListHist3.slR pol) pol (ListHist3.sl_step_or junk pol) (fun id l a ss w => sl_back_R junk pol id l a ss w) o t w Hw)].
    intros s' Hr Hg. exact (grants_refuses _ _ Hg Hr).
Qed.
Lemma cR_left c w : usable c -> cR c ∅ w -> nothing_left c w.
Proof.
  destruct c as [triv|N|junk pol|junk pol]; cbn [usable cR cstate nothing_left]; intros HU H.
  - destruct H as (ls & Hw & Hk). pose proof (winv_storage _ _ Hw) as (H1 & _ & _ & _ & H2). split; [exact H1|]. apply H2. apply map_eq. intros id. rewrite lookup_empty.
    apply (winv_absent _ _ _ Hw). specialize (Hk id). rewrite fmap_empty, lookup_empty in Hk. destruct (ls !! id); [discriminate|reflexivity].
  - unfold kdR in H. rewrite fmap_empty in H. pose proof (DequeHist2.storage_exact N _ _ H) as H1. pose proof (DequeHist2.elements_exact N HU _ _ H) as H2. split; [|rewrite H2; reflexivity].
    assert (E : d_obj w = ∅). { apply map_eq. intros id. rewrite lookup_empty. apply (DequeHist.winv_none _ _ _ _ H). apply lookup_empty. }
    unfold capacity_total in H1. rewrite E, map_to_list_empty in H1. cbn in H1. nia.
  - unfold klR in H. rewrite fmap_empty in H. destruct H as (lay & El & Hi & _). erewrite ListHist.nodes_exact by exact Hi. rewrite <- El. reflexivity.
  - unfold klR in H. rewrite fmap_empty in H. destruct H as (lay & El & Hi & _). erewrite ListHist.nodes_exact by exact Hi. rewrite <- El. reflexivity.
Qed.

Context (eqb_refl : forall a, eqb a a = true).
Theorem xstack_history c ops : usable c ->
  match srun (es_step (over c) cmp eqb) ops ∅ with
  | SVal (rs, s) => (exists w, xrun c cmp eqb mvd ops = Ok (rs, w) /\ (s = ∅ -> nothing_left c (fst w))) \/ (xrun c cmp eqb mvd ops = Abort /\ may_stop c)
  | SAbort => xrun c cmp eqb mvd ops = Abort
  | SUnspec => True
  end.
Proof.
  intros HU. assert (H0 : xR cmp eqb (cR c) ∅ (cinit c, ∅)) by (exists ∅; split; [apply cR_init, HU|]; intros id; cbn [snd]; rewrite !lookup_empty; exact I).
  pose proof (mrun_agree_or (e_step (cstep c) cmp eqb mvd) (es_step (over c) cmp eqb) (xR cmp eqb (cR c)) (fun _ => may_stop c) (e_step_ok (cstep c) (over c) cmp eqb mvd (cR c) (may_stop c) (cR_ok c HU) eqb_refl) ops ∅ _ H0) as H.
  unfold xrun. destruct (srun (es_step (over c) cmp eqb) ops ∅) as [[rs s]| |]; [|exact H|exact I].
  destruct H as [(w & E & t & HR & Hr)|(E & _ & _ & _ & _ & _ & _ & HF)]; [left|right; auto]. exists w. split; [exact E|]. intros ->. apply (cR_left c _ HU).
  replace t with (∅ : sw) in HR; [exact HR|]. apply map_eq. intros id. specialize (Hr id). rewrite lookup_empty in *. destruct (t !! id) as [[]|]; [destruct Hr|reflexivity].
Qed.
Lemma pushed_step b o s r s' : (forall id l p, s !! id = Some (l, p) -> l <> [] -> p = true) -> es_step b cmp eqb o s = SVal (r, s') -> forall id l p, s' !! id = Some (l, p) -> l <> [] -> p = true.
Proof.
  intros H. assert (Hin : forall id l p i l' p', <[id := (l, p)]> s !! i = Some (l', p') -> (l <> [] -> p = true) -> l' <> [] -> p' = true).
  { intros id l p i l' p' E Hp. destruct (decide (id = i)) as [->|Hne]; [rewrite lookup_insert in E; injection E as <- <-; exact Hp|rewrite lookup_insert_ne in E by exact Hne; eapply H; exact E]. }
  assert (Hs : forall l : list A, l <> [] -> some_pushed l = true) by (intros []; [congruence|reflexivity]).
  assert (Hin2 : forall src id l i l' p', <[src := ([], false)]> (<[id := (l, some_pushed l)]> s) !! i = Some (l', p') -> l' <> [] -> p' = true).
  { intros src id l i l' p' E. destruct (decide (src = i)) as [->|Hne]; [rewrite lookup_insert in E; injection E as <- <-; congruence|rewrite lookup_insert_ne in E by exact Hne; eapply Hin; [exact E|apply Hs]]. }
  destruct o as [id g|id src|id src|id src|id src|id|id a|id|id|id|id|id|id]; cbn [es_step].
  - destruct (s !! id) eqn:E; [discriminate|]. intros [= <- <-] i l p E1. eapply Hin; [exact E1|congruence].
  - destruct (s !! id) eqn:E; [discriminate|]. destruct (s !! src) as [[l p]|]; [|discriminate]. destruct (can_copy b l p); [|discriminate]. intros [= <- <-] i l' p' E1. eapply Hin; [exact E1|apply Hs].
  - destruct (s !! id) eqn:E; [discriminate|]. destruct (s !! src) as [[l p]|]; [|discriminate]. destruct (can_move b l); [|discriminate]. intros [= <- <-] i l' p' E1. eapply Hin2; exact E1.
  - destruct (s !! id) as [[l0 p0]|] eqn:E; [|discriminate]. destruct (s !! src) as [[l p]|]; [|discriminate]. destruct (id =? src); [intros [= <- <-]; exact H|]. destruct (can_copy b l p); [|discriminate]. intros [= <- <-] i l' p' E1. eapply Hin; [exact E1|apply Hs].
  - destruct (s !! id) as [[l0 p0]|] eqn:E; [|discriminate]. destruct (s !! src) as [[l p]|]; [|discriminate]. destruct (id =? src); [intros [= <- <-]; exact H|]. destruct (can_move b l); [|discriminate]. intros [= <- <-] i l' p' E1. eapply Hin2; exact E1.
  - destruct (s !! id) as [[l0 p0]|] eqn:E; [|discriminate]. intros [= <- <-] i l' p' E1. apply lookup_delete_Some in E1 as [_ E1]. eapply H; exact E1.
  - destruct (s !! id) as [[l p]|] eqn:E; [|discriminate]. assert (HX : forall r0 s0, SVal (RUnit (A := A), <[id := (a :: l, true)]> s) = SVal (r0, s0) -> forall i l' p', s0 !! i = Some (l', p') -> l' <> [] -> p' = true) by (intros r0 s0 [= <- <-] i l' p' E1; eapply Hin; [exact E1|auto]).
    destruct (extremum cmp l) as [x|]; [destruct (eqb x a); [discriminate|]|]; apply HX.
  - destruct (s !! id) as [[[|a l] p]|] eqn:E; [destruct b as [|[| |]]; discriminate| |discriminate]. intros [= <- <-] i l' p' E1. eapply Hin; [exact E1|]. intros _. eapply H; [exact E|discriminate].
  - destruct (s !! id) as [[[|a l] p]|] eqn:E; [destruct b as [|[| |]]; discriminate| |discriminate]. intros [= <- <-]. exact H.
  - destruct (s !! id) as [[l p]|] eqn:E; [|discriminate]. destruct (extremum cmp l); [|discriminate]. intros [= <- <-]. exact H.
  - destruct (s !! id) as [[l p]|] eqn:E; [|discriminate]. intros [= <- <-]. exact H.
  - destruct (s !! id) as [[l p]|] eqn:E; [|discriminate]. intros [= <- <-] i l' p' E1. eapply Hin; [exact E1|congruence].
  - discriminate.
Qed.
Lemma pushed_run b ops : forall s rs s', (forall id l p, s !! id = Some (l, p) -> l <> [] -> p = true) -> srun (es_step b cmp eqb) ops s = SVal (rs, s') -> forall id l p, s' !! id = Some (l, p) -> l <> [] -> p = true.
Proof.
  induction ops as [|o ops IH]; intros s rs s' H; cbn [srun]; [intros [= <- <-]; exact H|]. destruct (es_step b cmp eqb o s) as [[r s1]| |] eqn:E; [|discriminate|discriminate].
  destruct (srun (es_step b cmp eqb) ops s1) as [[rs1 s2]| |] eqn:E2; [|discriminate|discriminate]. intros [= <- <-]. eapply IH; [|exact E2]. eapply pushed_step; eassumption.
Qed.
Lemma xrun_state c ops rs s : usable c -> ~ may_stop c -> srun (es_step (over c) cmp eqb) ops ∅ = SVal (rs, s) -> exists w, xrun c cmp eqb mvd ops = Ok (rs, w) /\ xR cmp eqb (cR c) s w.
Proof.
  intros HU Hn Es. assert (H0 : xR cmp eqb (cR c) ∅ (cinit c, ∅)) by (exists ∅; split; [apply cR_init, HU|]; intros id; cbn [snd]; rewrite !lookup_empty; exact I).
  pose proof (mrun_agree_or (e_step (cstep c) cmp eqb mvd) (es_step (over c) cmp eqb) (xR cmp eqb (cR c)) (fun _ => may_stop c) (e_step_ok (cstep c) (over c) cmp eqb mvd (cR c) (may_stop c) (cR_ok c HU) eqb_refl) ops ∅ _ H0) as H.
  rewrite Es in H. destruct H as [H|(_ & _ & _ & _ & _ & _ & _ & HF)]; [exact H|destruct (Hn HF)].
Qed.
Theorem xstack_iter_refuted c ops rs s id a l p : usable c -> ~ may_stop c -> srun (es_step (over c) cmp eqb) ops ∅ = SVal (rs, s) -> s !! id = Some (a :: l, p) ->
  exists more w, xrun c cmp eqb mvd (ops ++ [EIter id]) = Ok (rs ++ [RList more], w) /\ length (a :: l) < length more.
Proof.
  intros HU Hn Es E. assert (p = true) as ->. { eapply (pushed_run _ _ ∅ _ _ ltac:(intros i ? ?; rewrite lookup_empty; discriminate) Es _ _ _ E). discriminate. }
  destruct (xrun_state c ops rs s HU Hn Es) as (w & R & Hw). destruct (iter_shows (cstep c) (over c) cmp eqb mvd (cR c) (may_stop c) (cR_ok c HU) Hn _ _ _ _ _ Hw E) as (more & w' & Ei & Hl).
  exists more, w'. split; [|exact Hl]. unfold xrun in *. rewrite (mrun_app _ _ _ _ _ _ R). cbn [mrun]. unfold bind. rewrite Ei. reflexivity.
Qed.
Theorem xstack_repeat_refuted c ops rs s id a l p x : (forall a, cmp a a = false) -> usable c -> ~ may_stop c -> srun (es_step (over c) cmp eqb) ops ∅ = SVal (rs, s) -> s !! id = Some (a :: l, p) ->
  extremum cmp (a :: l) = Some x -> exists w, xrun c cmp eqb mvd (ops ++ [EPush id x; EPop id; EExt id]) = Ok (rs ++ [RUnit; RUnit; RVal a], w).
Proof.
  intros Hi HU Hn Es E Ee. destruct (xrun_state c ops rs s HU Hn Es) as (w & R & Hw).
  destruct (repeat_shows (cstep c) (over c) cmp eqb mvd (cR c) (may_stop c) (cR_ok c HU) eqb_refl Hn _ _ _ _ _ _ _ Hi Hw E Ee) as (w' & Ei).
  exists w'. unfold xrun in *. rewrite (mrun_app _ _ _ _ _ _ R), Ei. reflexivity.
Qed.
End All.
(** The answer of getXValue() is an element that no other precedes. *)
Theorem extremum_first {A} (cmp : A -> A -> bool) : (forall a, cmp a a = false) -> (forall a b c, cmp a b = true -> cmp b c = true -> cmp a c = true) ->
  forall l, l <> [] -> exists x, extremum cmp l = Some x /\ In x l /\ forall y, In y l -> cmp y x = false.
Proof.
  intros Hi Ht. induction l as [|a l IH]; [congruence|]. intros _. cbn [extremum]. destruct l as [|b l].
  - exists a. split; [reflexivity|]. split; [left; reflexivity|]. intros y [->|[]]. apply Hi.
  - destruct (IH ltac:(discriminate)) as (x & -> & Hin & Hx). destruct (cmp a x) eqn:E.
    + exists a. split; [reflexivity|]. split; [left; reflexivity|]. intros y [->|Hy]; [apply Hi|]. destruct (cmp y a) eqn:E2; [|reflexivity]. rewrite <- (Hx y Hy). symmetry. eapply Ht; eassumption.
    + exists x. split; [reflexivity|]. split; [right; exact Hin|]. intros y [->|Hy]; [exact E|apply Hx, Hy].
Qed.
