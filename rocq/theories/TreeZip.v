(** Stored trees with a hole, and _swap_node. *)
From Coq Require Import Sorted.
From Verif Require Import Base TreeModel TreeSpec TreeBase TreeSets TreeRot.
Open Scope Z_scope.

Section Zip.
Context {A : Type}.
Notation tree := (atree A).
Implicit Types (h : gmap nat (node A)) (t l r : tree) (x : A).

(** One step from a node down to its left or right child. *)
Inductive frame := FL (a : nat) (hh : Z) (x : A) (r : tree) | FR (l : tree) (a : nat) (hh : Z) (x : A).
Implicit Types (C : list frame) (F : frame).
Definition fa F : nat := match F with FL a _ _ _ => a | FR _ a _ _ => a end.
Definition fill1 F t : tree := match F with FL a hh x r => Br t a hh x r | FR l a hh x => Br l a hh x t end.
(** Innermost frame first. *)
Fixpoint plug C t : tree := match C with [] => t | F :: C => plug C (fill1 F t) end.
Definition hpar (par : option nat) C : option nat := match C with [] => par | F :: _ => Some (fa F) end.
Definition flinked h (par : option nat) F (p : option nat) : Prop :=
  match F with
  | FL a hh x r => h !! a = Some (Nd par p (rootp r) hh x) /\ linked h (Some a) r
  | FR l a hh x => h !! a = Some (Nd par (rootp l) p hh x) /\ linked h (Some a) l
  end.
Fixpoint linkedC h (par : option nat) C (p : option nat) : Prop :=
  match C with [] => True | F :: C => flinked h (hpar par C) F p /\ linkedC h par C (Some (fa F)) end.
Definition cntF k F : nat := match F with FL a _ _ r => one k a + cnt k r | FR l a _ _ => cnt k l + one k a end.
Fixpoint cntC k C : nat := match C with [] => 0 | F :: C => cntF k F + cntC k C end.
Fixpoint elemsL C : list A :=
  match C with [] => [] | FL _ _ _ _ :: C => elemsL C | FR l _ _ x :: C => elemsL C ++ elems l ++ [x] end.
Fixpoint elemsR C : list A :=
  match C with [] => [] | FL _ _ x r :: C => x :: elems r ++ elemsR C | FR _ _ _ _ :: C => elemsR C end.

Lemma rootp_fill1 F t : rootp (fill1 F t) = Some (fa F).
Proof. destruct F; reflexivity. Qed.
Lemma cnt_fill1 k F t : cnt k (fill1 F t) = (cntF k F + cnt k t)%nat.
Proof. destruct F; cbn; lia. Qed.
Lemma cnt_plug k C t : cnt k (plug C t) = (cntC k C + cnt k t)%nat.
Proof. revert t. induction C as [|F C IH]; intros t; cbn [plug cntC]; [reflexivity|]. rewrite IH, cnt_fill1. lia. Qed.
Lemma linked_fill1 h par F t : linked h par (fill1 F t) <-> flinked h par F (rootp t) /\ linked h (Some (fa F)) t.
Proof. destruct F; cbn [fill1 linked flinked fa]; tauto. Qed.
Lemma linked_plug h par C t : linked h par (plug C t) <-> linkedC h par C (rootp t) /\ linked h (hpar par C) t.
Proof.
  revert t. induction C as [|F C IH]; intros t; cbn [plug linkedC hpar]; [tauto|].
  rewrite IH, linked_fill1, rootp_fill1. tauto.
Qed.
Lemma elems_plug C t : elems (plug C t) = elemsL C ++ elems t ++ elemsR C.
Proof.
  revert t. induction C as [|F C IH]; intros t; cbn [plug elemsL elemsR]; [rewrite app_nil_r; reflexivity|].
  rewrite IH. destruct F; cbn [fill1 elems]; rewrite <- ?app_assoc; reflexivity.
Qed.
Lemma plug_app C1 C2 t : plug (C1 ++ C2) t = plug C2 (plug C1 t).
Proof. revert t. induction C1 as [|F C1 IH]; intros t; cbn; [reflexivity|]. apply IH. Qed.
Lemma fa_cnt F : (0 < cntF (fa F) F)%nat.
Proof. destruct F; cbn; rewrite one_eq; lia. Qed.
Lemma rootp_plug C t : rootp (plug C t) = match last C with Some F => Some (fa F) | None => rootp t end.
Proof.
  revert t. induction C as [|F C IH]; intros t; [reflexivity|]. cbn [plug]. rewrite IH, last_cons.
  destruct (last C); [reflexivity|]. apply rootp_fill1.
Qed.
Lemma rootp_plug_ne C t t' : C <> [] -> rootp (plug C t) = rootp (plug C t').
Proof. intros H. rewrite !rootp_plug. destruct (last C) eqn:E; [reflexivity|]. apply last_None in E. congruence. Qed.

Lemma flinked_same h h' par F p : (forall k, (0 < cntF k F)%nat -> h' !! k = h !! k) -> flinked h par F p -> flinked h' par F p.
Proof.
  intros Hs. destruct F; cbn [flinked cntF] in *; (intros [H1 H2]; split;
    [rewrite Hs; [exact H1|rewrite one_eq; lia]|eapply linked_same; [|exact H2]; intros k Hk; apply Hs; lia]).
Qed.
Lemma linkedC_same h h' par C p : (forall k, (0 < cntC k C)%nat -> h' !! k = h !! k) -> linkedC h par C p -> linkedC h' par C p.
Proof.
  revert p. induction C as [|F C IH]; intros p Hs; cbn [linkedC cntC] in *; [auto|].
  intros [H1 H2]. split.
  - eapply flinked_same; [|exact H1]. intros k Hk. apply Hs. lia.
  - apply IH; [|exact H2]. intros k Hk. apply Hs. lia.
Qed.

(** Field updates in place. *)
Definition sp (q : option nat) (n : node A) := Nd q (n_left n) (n_right n) (n_h n) (n_val n).
Definition sl (q : option nat) (n : node A) := Nd (n_par n) q (n_right n) (n_h n) (n_val n).
Definition sr (q : option nat) (n : node A) := Nd (n_par n) (n_left n) q (n_h n) (n_val n).
Definition sh (z : Z) (n : node A) := Nd (n_par n) (n_left n) (n_right n) z (n_val n).
Lemma alter_ins (g : node A -> node A) k h n : h !! k = Some n -> <[k := g n]> h = alter g k h.
Proof.
  intros H. apply map_eq. intros j. destruct (decide (j = k)) as [->|Hj].
  - rewrite lookup_insert, lookup_alter, H. reflexivity.
  - rewrite lookup_insert_ne, lookup_alter_ne by congruence. reflexivity.
Qed.
Lemma st_par_al h f rt z k q n : h !! k = Some n -> st_par (Some k) q (TSt h f rt z) = Ok (tt, TSt (alter (sp q) k h) f rt z).
Proof. intros H. rewrite (st_par_ok _ _ _ _ _ _ _ H), <- (alter_ins (sp q) _ _ _ H). reflexivity. Qed.
Lemma st_left_al h f rt z k q n : h !! k = Some n -> st_left (Some k) q (TSt h f rt z) = Ok (tt, TSt (alter (sl q) k h) f rt z).
Proof. intros H. rewrite (st_left_ok _ _ _ _ _ _ _ H), <- (alter_ins (sl q) _ _ _ H). reflexivity. Qed.
Lemma st_right_al h f rt z k q n : h !! k = Some n -> st_right (Some k) q (TSt h f rt z) = Ok (tt, TSt (alter (sr q) k h) f rt z).
Proof. intros H. rewrite (st_right_ok _ _ _ _ _ _ _ H), <- (alter_ins (sr q) _ _ _ H). reflexivity. Qed.
Lemma st_h_al h f rt z k q n : h !! k = Some n -> st_h (Some k) q (TSt h f rt z) = Ok (tt, TSt (alter (sh q) k h) f rt z).
Proof. intros H. rewrite (st_h_ok _ _ _ _ _ _ _ H), <- (alter_ins (sh q) _ _ _ H). reflexivity. Qed.
Definition setparp h (p : option nat) (q : option nat) := match p with None => h | Some k => alter (sp q) k h end.
Lemma when_st_par_al h f rt z p q : (forall k, p = Some k -> is_Some (h !! k)) ->
  when (negb (is_null p)) (st_par p q) (TSt h f rt z) = Ok (tt, TSt (setparp h p q) f rt z).
Proof.
  intros H. destruct p as [k|]; [|reflexivity]. destruct (H k eq_refl) as [n Hn]. cbn [is_null negb when setparp].
  apply (st_par_al _ _ _ _ _ _ _ Hn).
Qed.

Lemma linked_alter_ne h par t k g : cnt k t = 0%nat -> linked h par t -> linked (alter g k h) par t.
Proof. intros Hk. apply linked_same. intros j Hj. rewrite lookup_alter_ne; [reflexivity|]. intros ->. lia. Qed.
Lemma linkedC_alter_ne h par C p k g : cntC k C = 0%nat -> linkedC h par C p -> linkedC (alter g k h) par C p.
Proof. intros Hk. apply linkedC_same. intros j Hj. rewrite lookup_alter_ne; [reflexivity|]. intros ->. lia. Qed.
Lemma linked_reparent h par t q : nd t -> linked h par t -> linked (setparp h (rootp t) q) q t.
Proof.
  intros Hn H. destruct t as [|l a hh x r]; [exact I|]. cbn [linked setparp rootp] in *. destruct H as (Ha & Hl & Hr).
  pose proof (Hn a) as Hna. cbn [cnt] in Hna. rewrite one_eq in Hna.
  split_and!; [rewrite lookup_alter, Ha; reflexivity| |]; apply linked_alter_ne; (assumption || lia).
Qed.
Lemma linkedC_hole h par a hh x r C p q : cntC a (FL a hh x r :: C) = 1%nat ->
  linkedC h par (FL a hh x r :: C) p -> linkedC (alter (sl q) a h) par (FL a hh x r :: C) q.
Proof.
  cbn [linkedC cntC cntF flinked]. rewrite one_eq. intros Hn [[H1 H2] H3]. split_and!.
  - rewrite lookup_alter, H1. reflexivity.
  - apply linked_alter_ne; [lia|exact H2].
  - apply linkedC_alter_ne; [lia|exact H3].
Qed.
Lemma linkedC_top h par C F p q : (forall k, cntC k (C ++ [F]) <= 1)%nat ->
  linkedC h par (C ++ [F]) p -> linkedC (alter (sp q) (fa F) h) q (C ++ [F]) p.
Proof.
  revert p. induction C as [|G C IH]; intros p Hn; cbn [app linkedC].
  - intros [H1 _]. split; [|exact I]. pose proof (Hn (fa F)) as Hf. cbn [app cntC] in Hf.
    destruct F as [a hh x r|l a hh x]; cbn [flinked fa hpar cntF] in *; rewrite one_eq in Hf; destruct H1 as [H1 H2]; split;
      try (rewrite lookup_alter, H1; reflexivity); apply linked_alter_ne; (exact H2 || lia).
  - intros [H1 H2].
    assert (forall k, cntC k (C ++ [F]) <= 1)%nat as Hn' by (intros k; specialize (Hn k); cbn [app cntC] in Hn; lia).
    split; [|apply IH; assumption].
    assert (hpar q (C ++ [F]) = hpar par (C ++ [F])) as -> by (destruct C; reflexivity).
    eapply flinked_same; [|exact H1]. intros k Hk. apply lookup_alter_ne. intros <-.
    specialize (Hn (fa F)). cbn [app cntC] in Hn.
    assert (0 < cntC (fa F) (C ++ [F]))%nat; [|lia].
    clear. induction C as [|G C IH]; cbn [app cntC]; [pose proof (fa_cnt F); lia|lia].
Qed.

(** The smallest node of a tree: its address, its value; another node in its
    place. *)
Fixpoint minA t : option (nat * A) :=
  match t with Lf => None | Br Lf b _ y _ => Some (b, y) | Br l _ _ _ _ => minA l end.
Fixpoint setmin t (a : nat) x : tree :=
  match t with Lf => Lf | Br Lf _ hb _ r => Br Lf a hb x r | Br l b hb y r => Br (setmin l a x) b hb y r end.
Definition isFL F : Prop := match F with FL _ _ _ _ => True | _ => False end.
Lemma min_zip t : t <> Lf -> exists C b hb y r, t = plug C (Br Lf b hb y r) /\ Forall isFL C /\ minA t = Some (b, y) /\
  forall a x, setmin t a x = plug C (Br Lf a hb x r).
Proof.
  induction t as [|l IH b hb y r _]; [congruence|]. intros _. destruct l as [|ll b2 hb2 y2 lr].
  - exists [], b, hb, y, r. split_and!; auto.
  - destruct IH as (C & b3 & hb3 & y3 & r3 & E & HC & Hm & Hs); [discriminate|].
    exists (C ++ [FL b hb y r]), b3, hb3, y3, r3. split_and!.
    + rewrite plug_app, <- E. reflexivity.
    + apply Forall_app. split; [exact HC|repeat constructor].
    + exact Hm.
    + intros a x. rewrite plug_app, <- Hs. reflexivity.
Qed.
Lemma minA_some t : t <> Lf -> exists b y, minA t = Some (b, y).
Proof. intros H. destruct (min_zip t H) as (C & b & hb & y & r & _ & _ & E & _). eauto. Qed.
Lemma minA_elems t b y : minA t = Some (b, y) -> exists L, elems t = y :: L /\ forall a x, elems (setmin t a x) = x :: L.
Proof.
  intros Hm. destruct (min_zip t) as (C & b3 & hb3 & y3 & r3 & E & HC & Hm' & Hs); [intros ->; discriminate|].
  rewrite Hm in Hm'. injection Hm' as <- <-.
  assert (elemsL C = []) as HL by (clear -HC; induction HC as [|F C HF _ IH]; [reflexivity|destruct F; [exact IH|contradiction]]).
  exists (elems r3 ++ elemsR C). split.
  - rewrite E, elems_plug, HL. reflexivity.
  - intros a x. rewrite Hs, elems_plug, HL. reflexivity.
Qed.
Lemma minA_cnt t b y : minA t = Some (b, y) -> (0 < cnt b t)%nat /\ forall k a x, (cnt k (setmin t a x) + one k b = cnt k t + one k a)%nat.
Proof.
  intros Hm. destruct (min_zip t) as (C & b3 & hb3 & y3 & r3 & E & HC & Hm' & Hs); [intros ->; discriminate|].
  rewrite Hm in Hm'. injection Hm' as <- <-. split.
  - rewrite E, cnt_plug. cbn [cnt]. rewrite one_eq. lia.
  - intros k a x. rewrite Hs. rewrite E at 1. rewrite !cnt_plug. cbn [cnt]. lia.
Qed.

(** The parent of [a] gets [b] as a child instead. *)
Definition swapc (a b : nat) (p : option nat) : option nat := if ptr_eqb p (Some a) then Some b else p.
Definition fixn (a b : nat) (n : node A) : node A :=
  Nd (n_par n) (swapc a b (n_left n)) (swapc a b (n_right n)) (n_h n) (n_val n).
Definition fixp h (par : option nat) (a b : nat) := match par with None => h | Some p => alter (fixn a b) p h end.
Lemma ptr_eqb_refl p : ptr_eqb p p = true.
Proof. unfold ptr_eqb. apply bool_decide_eq_true_2. reflexivity. Qed.
Lemma ptr_eqb_ne p q : p <> q -> ptr_eqb p q = false.
Proof. unfold ptr_eqb. apply bool_decide_eq_false_2. Qed.
Definition fxl (a b : nat) (n : node A) := Nd (n_par n) (swapc a b (n_left n)) (n_right n) (n_h n) (n_val n).
Definition fxr (a b : nat) (n : node A) := Nd (n_par n) (n_left n) (swapc a b (n_right n)) (n_h n) (n_val n).
Definition onp (g : node A -> node A) h (par : option nat) := match par with None => h | Some p => alter g p h end.
Lemma fix_left_ok h f rt z par a b : (forall p, par = Some p -> is_Some (h !! p)) ->
  when (negb (is_null par)) (l <- ld_left par ;; when (ptr_eqb l (Some a)) (st_left par (Some b))) (TSt h f rt z)
  = Ok (tt, TSt (onp (fxl a b) h par) f rt z).
Proof.
  intros Hp. destruct par as [p|]; [|reflexivity]. destruct (Hp p eq_refl) as [n Hn]. clear Hp.
  cbn [is_null negb when onp]. rewrite <- (alter_ins (fxl a b) _ _ _ Hn). unfold fxl, swapc.
  erewrite bind_ok by hacc. destruct (ptr_eqb (n_left n) (Some a)); cbn [when].
  - rewrite (st_left_ok _ _ _ _ _ _ _ Hn). reflexivity.
  - unfold ret. do 3 f_equal. symmetry. apply insert_id. rewrite Hn. destruct n; reflexivity.
Qed.
Lemma fix_right_ok h f rt z par a b : (forall p, par = Some p -> is_Some (h !! p)) ->
  when (negb (is_null par)) (l <- ld_right par ;; when (ptr_eqb l (Some a)) (st_right par (Some b))) (TSt h f rt z)
  = Ok (tt, TSt (onp (fxr a b) h par) f rt z).
Proof.
  intros Hp. destruct par as [p|]; [|reflexivity]. destruct (Hp p eq_refl) as [n Hn]. clear Hp.
  cbn [is_null negb when onp]. rewrite <- (alter_ins (fxr a b) _ _ _ Hn). unfold fxr, swapc.
  erewrite bind_ok by hacc. destruct (ptr_eqb (n_right n) (Some a)); cbn [when].
  - rewrite (st_right_ok _ _ _ _ _ _ _ Hn). reflexivity.
  - unfold ret. do 3 f_equal. symmetry. apply insert_id. rewrite Hn. destruct n; reflexivity.
Qed.
Lemma fix_both h par a b : onp (fxr a b) (onp (fxl a b) h par) par = fixp h par a b.
Proof. destruct par as [p|]; [|reflexivity]. cbn [onp fixp]. rewrite <- alter_compose. reflexivity. Qed.
Lemma onp_some g h par k : is_Some (h !! k) -> is_Some (onp g h par !! k).
Proof.
  intros H. destruct par as [p|]; [|exact H]. cbn [onp]. destruct (decide (p = k)) as [->|Hne].
  - rewrite lookup_alter. destruct H as [n ->]. eauto.
  - rewrite lookup_alter_ne by congruence. exact H.
Qed.
End Zip.
Arguments frame A : clear implicits.
