(** Every tree operation moves elements and the nodes they are in together. *)
From Coq Require Import Sorted.
From Verif Require Import Base TreeModel TreeSpec TreeBase TreeSets TreeRot TreeIns TreeZip TreeSwap TreeDel TreeErase TreeIter.
Open Scope Z_scope.

Section Tag.
Context {A : Type} (cmp : A -> A -> bool).
Notation tree := (atree A).
Notation ttree := (atree (nat * A)).
Implicit Types (t l r : tree) (x : A) (C : list (frame A)) (F : frame A).

(** Each value together with the address of its node. *)
Fixpoint tag t : ttree := match t with Lf => Lf | Br l a hh x r => Br (tag l) a hh (a, x) (tag r) end.
Definition tagF F : frame (nat * A) :=
  match F with FL a hh x r => FL a hh (a, x) (tag r) | FR l a hh x => FR (tag l) a hh (a, x) end.
Definition tcmp (p q : nat * A) : bool := cmp (snd p) (snd q).
(** Addresses and values in order. *)
Definition pairs t : list (nat * A) := elems (tag t).

Lemma pairs_snd t : (pairs t).*2 = elems t.
Proof.
  unfold pairs. induction t as [|l IHl a hh x r IHr]; [reflexivity|]. cbn [tag elems]. rewrite fmap_app. cbn [fmap list_fmap snd].
  rewrite IHl. f_equal. f_equal. exact IHr.
Qed.
Lemma tag_hd t : hd (tag t) = hd t.
Proof. destruct t; reflexivity. Qed.
Lemma tag_bf t : bfF (tag t) = bfF t.
Proof. destruct t; cbn [tag bfF]; rewrite ?tag_hd; reflexivity. Qed.
Lemma tag_lrot t : tag (lrotF t) = lrotF (tag t).
Proof. destruct t as [|l a ha x [|rl b hb y rr]]; cbn; rewrite ?tag_hd; reflexivity. Qed.
Lemma tag_rrot t : tag (rrotF t) = rrotF (tag t).
Proof. destruct t as [|[|ll b hb y lr] a ha x r]; cbn; rewrite ?tag_hd; reflexivity. Qed.
Lemma tag_upd t : tag (updF t) = updF (tag t).
Proof. destruct t; cbn; rewrite ?tag_hd; reflexivity. Qed.
Lemma tag_bal t : tag (balF t) = balF (tag t).
Proof.
  destruct t as [|l a ha x r]; [reflexivity|]. unfold balF. cbn [tag]. fold (tag (Br l a ha x r)).
  change (bfF (Br (tag l) a ha (a, x) (tag r))) with (bfF (tag (Br l a ha x r))). rewrite !tag_bf.
  destruct (1 <? _); [rewrite tag_rrot; destruct (_ <? 0); cbn [tag]; rewrite ?tag_lrot; reflexivity|].
  destruct (_ <? -1); [rewrite tag_lrot; destruct (0 <? _); cbn [tag]; rewrite ?tag_rrot; reflexivity|reflexivity].
Qed.
Lemma tag_min t : minA (tag t) = match minA t with Some (b, y) => Some (b, (b, y)) | None => None end.
Proof.
  induction t as [|l IHl a hh x r _]; [reflexivity|]. destruct l as [|l1 a1 h1 x1 r1]; [reflexivity|]. cbn [tag minA] in *. exact IHl.
Qed.
Lemma tag_delmin t : tag (delminF t) = delminF (tag t).
Proof.
  induction t as [|l IHl a hh x r _]; [reflexivity|]. destruct (lf_dec l) as [->|Hl]; [reflexivity|].
  rewrite delmin_Br by exact Hl. rewrite tag_bal, tag_upd. cbn [tag]. rewrite IHl. destruct l; [congruence|reflexivity].
Qed.
Lemma tag_ins x f t : tag (insF cmp x f t) = insF tcmp (f, x) f (tag t).
Proof.
  induction t as [|l IHl a hh v r IHr]; [reflexivity|]. cbn [insF tag]. change (tcmp (f, x) (a, v)) with (cmp x v). destruct (cmp x v); cbn zeta.
  - rewrite tag_upd, <- IHl, !tag_hd. destruct (_ =? 2); [|reflexivity]. rewrite tag_rrot. cbn [tag].
    assert (root_lt tcmp (tag (insF cmp x f l)) (f, x) = root_lt cmp (insF cmp x f l) x) as -> by (destruct (insF cmp x f l); reflexivity).
    destruct (root_lt cmp _ x); rewrite ?tag_lrot; reflexivity.
  - rewrite tag_upd, <- IHr, !tag_hd. destruct (_ =? 2); [|reflexivity]. rewrite tag_lrot. cbn [tag].
    assert (root_gt tcmp (tag (insF cmp x f r)) (f, x) = root_gt cmp (insF cmp x f r) x) as -> by (destruct (insF cmp x f r); reflexivity).
    destruct (root_gt cmp _ x); rewrite ?tag_rrot; reflexivity.
Qed.
Lemma tag_del n x t : tag (delF cmp x t) = delF tcmp (n, x) (tag t).
Proof.
  induction t as [|l IHl a hh v r IHr]; [reflexivity|]. cbn [delF tag]. change (tcmp (n, x) (a, v)) with (cmp x v). change (tcmp (a, v) (n, x)) with (cmp v x). destruct (cmp x v); [|destruct (cmp v x)].
  - rewrite tag_bal, tag_upd. cbn [tag]. rewrite IHl. reflexivity.
  - rewrite tag_bal, tag_upd. cbn [tag]. rewrite IHr. reflexivity.
  - destruct l as [|l1 b1 h1 y1 r1] eqn:El; [reflexivity|]. destruct r as [|l2 b2 h2 y2 r2] eqn:Er; [reflexivity|]. rewrite <- El, <- Er in *.
    rewrite tag_min. destruct (minA_some r) as (b & y & Hm); [subst; discriminate|]. rewrite Hm. rewrite tag_bal, tag_upd. cbn [tag].
    rewrite tag_delmin. subst l r. reflexivity.
Qed.
Lemma tag_fill1 F t : tag (fill1 F t) = fill1 (tagF F) (tag t).
Proof. destruct F; reflexivity. Qed.
Lemma tag_plug C : forall t, tag (plug C t) = plug (tagF <$> C) (tag t).
Proof. induction C as [|F C IH]; intros t; [reflexivity|]. cbn [plug fmap list_fmap]. rewrite IH, tag_fill1. reflexivity. Qed.
Lemma tag_rebuild C : forall t, tag (rebuild C t) = rebuild (tagF <$> C) (tag t).
Proof.
  induction C as [|F C IH]; intros t; cbn [rebuild fmap list_fmap]; [apply tag_bal|]. rewrite IH, tag_upd, tag_fill1, tag_bal. reflexivity.
Qed.
Lemma tag_subt l r : tag (subt l r) = subt (tag l) (tag r).
Proof. destruct l; reflexivity. Qed.
Lemma tag_delat F C l r : tag (delat F C l r) = delat (tagF F) (tagF <$> C) (tag l) (tag r).
Proof. unfold delat. rewrite tag_rebuild, tag_upd, tag_fill1, tag_subt. reflexivity. Qed.
Lemma tag_at n x t : atF tcmp (n, x) (tag t) = atF cmp x t.
Proof. induction t as [|l IHl a hh v r IHr]; [reflexivity|]. cbn [tag atF]. change (tcmp (n, x) (a, v)) with (cmp x v). change (tcmp (a, v) (n, x)) with (cmp v x). rewrite IHl, IHr. reflexivity. Qed.
Lemma tag_lf t : tag t = Lf <-> t = Lf.
Proof. destruct t; split; intros; (reflexivity || discriminate). Qed.

Definition pairsL C := elemsL (tagF <$> C).
Definition pairsR C := elemsR (tagF <$> C).
Lemma pairs_plug C t : pairs (plug C t) = pairsL C ++ pairs t ++ pairsR C.
Proof. unfold pairs. rewrite tag_plug. apply elems_plug. Qed.
Lemma pairs_Br l a hh x r : pairs (Br l a hh x r) = pairs l ++ (a, x) :: pairs r.
Proof. reflexivity. Qed.
Lemma pairs_FL C : Forall isFL C -> pairsL C = [].
Proof. intros H. apply elemsL_FL. induction H as [|F C HF _ IH]; constructor; [destruct F; [exact I|contradiction]|exact IH]. Qed.
Lemma pairsL_app C1 C2 : pairsL (C1 ++ C2) = pairsL C2 ++ pairsL C1.
Proof. unfold pairsL. rewrite fmap_app. apply elemsL_app. Qed.
Lemma pairsR_app C1 C2 : pairsR (C1 ++ C2) = pairsR C1 ++ pairsR C2.
Proof. unfold pairsR. rewrite fmap_app. apply elemsR_app. Qed.
Lemma pairs_delat F C l r : l = Lf \/ r = Lf -> pairs (delat F C l r) = pairsL (F :: C) ++ (pairs l ++ pairs r) ++ pairsR (F :: C).
Proof. intros H. unfold pairs. rewrite tag_delat. apply delat_elems. rewrite !tag_lf. exact H. Qed.

(** Sets of numbered elements, ordered by the elements. *)
Implicit Types (ps : list (nat * A)).
Lemma tcmp_swo : swo cmp -> swo tcmp.
Proof. intros [H1 H2]. split; unfold tcmp; intros; eauto. Qed.
Lemma asc_snd ps : ascending tcmp ps <-> ascending cmp ps.*2.
Proof.
  unfold ascending. induction ps as [|p ps IH]; cbn [fmap list_fmap]; [split; constructor|].
  split; intros H; apply StronglySorted_inv in H as [H1 H2]; constructor; try (apply IH; exact H1).
  - apply Forall_fmap. exact H2.
  - apply Forall_fmap in H2. exact H2.
Qed.
Lemma lookup_snd n x ps : snd <$> lookup_set tcmp (n, x) ps = lookup_set cmp x ps.*2.
Proof.
  unfold lookup_set. induction ps as [|p ps IH]; [reflexivity|]. cbn [fmap list_fmap List.find].
  change (equivb tcmp (n, x) p) with (equivb cmp x (snd p)). destruct (equivb cmp x (snd p)); [reflexivity|exact IH].
Qed.
Lemma next_snd n x ps : snd <$> next_set tcmp (n, x) ps = next_set cmp x ps.*2.
Proof.
  unfold next_set. induction ps as [|p ps IH]; [reflexivity|]. cbn [fmap list_fmap List.find].
  change (tcmp (n, x) p) with (cmp x (snd p)). destruct (cmp x (snd p)); [reflexivity|exact IH].
Qed.
Lemma remove_snd n x ps : (remove_set tcmp (n, x) ps).*2 = remove_set cmp x ps.*2.
Proof.
  unfold remove_set. induction ps as [|p ps IH]; [reflexivity|]. cbn [fmap list_fmap List.filter].
  change (equivb tcmp (n, x) p) with (equivb cmp x (snd p)). destruct (equivb cmp x (snd p)); cbn [negb fmap list_fmap]; [exact IH|]. f_equal. exact IH.
Qed.
Lemma add_snd n x ps : (add_set tcmp (n, x) ps).*2 = add_set cmp x ps.*2.
Proof.
  induction ps as [|p ps IH]; [reflexivity|]. cbn [fmap list_fmap add_set].
  change (tcmp (n, x) p) with (cmp x (snd p)). destruct (cmp x (snd p)); cbn [fmap list_fmap]; [reflexivity|]. f_equal. exact IH.
Qed.
Lemma pairs_asc t : ascending cmp (elems t) -> ascending tcmp (pairs t).
Proof. intros H. apply asc_snd. rewrite pairs_snd. exact H. Qed.
Lemma pairs_ins x f t : swo cmp -> ascending cmp (elems t) -> lookup_set cmp x (elems t) = None ->
  pairs (insF cmp x f t) = add_set tcmp (f, x) (pairs t).
Proof.
  intros Hc Ha Hx. unfold pairs. rewrite tag_ins. apply elems_ins; [apply tcmp_swo, Hc|apply pairs_asc, Ha|].
  pose proof (lookup_snd f x (pairs t)) as E. rewrite pairs_snd, Hx in E. unfold pairs in E. destruct (lookup_set tcmp _ _); [discriminate|reflexivity].
Qed.
Lemma pairs_del n x t : swo cmp -> ascending cmp (elems t) -> pairs (delF cmp x t) = remove_set tcmp (n, x) (pairs t).
Proof. intros Hc Ha. unfold pairs. rewrite (tag_del n). apply elems_del; [apply tcmp_swo, Hc|apply pairs_asc, Ha]. Qed.
End Tag.
