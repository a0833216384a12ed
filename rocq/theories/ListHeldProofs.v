(** What the head nodes hold. *)
From Verif Require Import Base Alloc AllocProofs VectorModel VectorSpec Adapter Hist ListModel ListSpec ListProofs ListHist ListHist2 ListHist3
  ListIterModel ListIterSpec ListIterProofs ListHeldSpec.

Section Held.
Context {A : Type} (junk : A).
Implicit Types (st : lst A) (lay : gmap nat (list (nat * A))).
Notation L := (M (lst A)).

Definition hd st (i : nat) : option A := dt (l_cells st) (Head i).

(** Computations that leave the values in the head nodes alone, and computations
    that put one value into one head node. *)
Definition hkeep {X} (m : L X) : Prop := forall st x st', m st = Ok (x, st') -> forall i, hd st' i = hd st i.
Definition hput {X} (id : nat) (a : A) (m : L X) : Prop := forall st x st', m st = Ok (x, st') -> forall i, hd st' i = if decide (i = id) then Some a else hd st i.

Lemma hk_ret {X} (x : X) : hkeep (ret x).
Proof. intros st y st' [= _ <-] i. reflexivity. Qed.
Lemma hk_bind {X Y} (m : L X) (f : X -> L Y) : hkeep m -> (forall x, hkeep (f x)) -> hkeep (bind m f).
Proof. intros Hm Hf st y st' E i. apply bind_inv in E as (x & st1 & E1 & E2). rewrite (Hf x _ _ _ E2). exact (Hm _ _ _ E1 i). Qed.
Lemma hp_bind {X Y} id a (m : L X) (f : X -> L Y) : hput id a m -> (forall x, hkeep (f x)) -> hput id a (bind m f).
Proof. intros Hm Hf st y st' E i. apply bind_inv in E as (x & st1 & E1 & E2). rewrite (Hf x _ _ _ E2). exact (Hm _ _ _ E1 i). Qed.
Lemma hp_again {X Y} id a (m : L X) (f : X -> L Y) : hput id a m -> (forall x, hput id a (f x)) -> hput id a (bind m f).
Proof. intros Hm Hf st y st' E i. apply bind_inv in E as (x & st1 & E1 & E2). rewrite (Hf x _ _ _ E2). rewrite (Hm _ _ _ E1 i). case_decide; reflexivity. Qed.
Lemma hk_bad {X} (r : res (X * lst A)) : (forall p, r <> Ok p) -> hkeep (fun _ => r).
Proof. intros H st x st' E. destruct (H _ E). Qed.
Lemma hk_assert b : hkeep (dassert b).
Proof. destruct b; [apply hk_ret|apply hk_bad; discriminate]. Qed.
Lemma hk_ld p : hkeep (ld p).
Proof. intros st x st' E i. unfold ld in E. destruct (l_cells st !! p); [injection E as _ <-; reflexivity|discriminate]. Qed.
Lemma hk_nonnull p : hkeep (nonnull p).
Proof. destruct p; [apply hk_ret|apply hk_bad; discriminate]. Qed.
Lemma hk_ld_size id : hkeep (ld_size id).
Proof. intros st x st' E i. unfold ld_size in E. destruct (l_size st !! id); [injection E as _ <-; reflexivity|discriminate]. Qed.
Lemma hk_st_size id n : hkeep (st_size id n).
Proof. intros st x st' E i. unfold st_size in E. destruct (l_size st !! id); [injection E as _ <-; reflexivity|discriminate]. Qed.
Lemma hk_ld_tail id : hkeep (ld_tail id).
Proof. intros st x st' E i. unfold ld_tail in E. destruct (l_tail st !! id); [injection E as _ <-; reflexivity|discriminate]. Qed.
Lemma hk_st_tail id n : hkeep (st_tail id n).
Proof. intros st x st' E i. unfold st_tail in E. destruct (l_tail st !! id); [injection E as _ <-; reflexivity|discriminate]. Qed.
Lemma hk_st_next p q : hkeep (st_next p q).
Proof.
  intros st x st' E i. unfold st_next, ld, stc, bind in E. destruct (l_cells st !! p) as [c|] eqn:Ep; [|discriminate]. rewrite Ep in E. injection E as _ <-.
  unfold hd, dt. cbn [l_cells]. destruct (decide (p = Head i)) as [->|Hne]; [rewrite lookup_insert, Ep; reflexivity|rewrite lookup_insert_ne by exact Hne; reflexivity].
Qed.
Lemma hk_st_prev p q : hkeep (st_prev p q).
Proof.
  intros st x st' E i. unfold st_prev, ld, stc, bind in E. destruct (l_cells st !! p) as [c|] eqn:Ep; [|discriminate]. rewrite Ep in E. injection E as _ <-.
  unfold hd, dt. cbn [l_cells]. destruct (decide (p = Head i)) as [->|Hne]; [rewrite lookup_insert, Ep; reflexivity|rewrite lookup_insert_ne by exact Hne; reflexivity].
Qed.
Lemma hp_st_dat id a : hput id a (st_dat (Head id) a).
Proof.
  intros st x st' E i. unfold st_dat, ld, stc, bind in E. destruct (l_cells st !! Head id) as [c|] eqn:Ep; [|discriminate]. rewrite Ep in E. injection E as _ <-.
  unfold hd, dt. cbn [l_cells]. case_decide as Hi; [subst i; rewrite lookup_insert; reflexivity|rewrite lookup_insert_ne by congruence; reflexivity].
Qed.
Lemma hk_st_dat n a : hkeep (st_dat (Node n) a).
Proof.
  intros st x st' E i. unfold st_dat, ld, stc, bind in E. destruct (l_cells st !! Node n) as [c|] eqn:Ep; [|discriminate]. rewrite Ep in E. injection E as _ <-.
  unfold hd, dt. cbn [l_cells]. rewrite lookup_insert_ne by discriminate. reflexivity.
Qed.
Lemma hk_new_node id : hkeep (new_node id).
Proof.
  intros st x st' E i. unfold new_node in E. destruct (l_cells st !! Head id); [|discriminate]. destruct (al_pick (l_al st)); [|discriminate]. injection E as _ <-.
  unfold hd, dt. cbn [l_cells]. rewrite lookup_insert_ne by discriminate. reflexivity.
Qed.
Lemma hk_free_node p : hkeep (free_node p).
Proof.
  intros st x st' E i. unfold free_node in E. destruct p as [j|n]; [discriminate|]. destruct (l_cells st !! Node n); [|discriminate]. injection E as _ <-.
  unfold hd, dt. cbn [l_cells]. rewrite lookup_delete_ne by discriminate. reflexivity.
Qed.
Lemma hk_ld_next p : hkeep (ld_next p).
Proof. apply hk_bind; [apply hk_ld|intros; apply hk_ret]. Qed.
Lemma hk_ld_prev p : hkeep (ld_prev p).
Proof. apply hk_bind; [apply hk_ld|intros; apply hk_ret]. Qed.
Lemma hk_ld_dat p : hkeep (ld_dat p).
Proof. apply hk_bind; [apply hk_ld|intros; apply hk_ret]. Qed.

Ltac hk := repeat match goal with
  | |- hkeep (ret _) => apply hk_ret
  | |- hkeep (bind _ _) => apply hk_bind; [|intros ?]
  | |- hkeep (dassert _) => apply hk_assert
  | |- hkeep (ld _) => apply hk_ld
  | |- hkeep (ld_next _) => apply hk_ld_next
  | |- hkeep (ld_prev _) => apply hk_ld_prev
  | |- hkeep (ld_dat _) => apply hk_ld_dat
  | |- hkeep (nonnull _) => apply hk_nonnull
  | |- hkeep (ld_size _) => apply hk_ld_size
  | |- hkeep (st_size _ _) => apply hk_st_size
  | |- hkeep (ld_tail _) => apply hk_ld_tail
  | |- hkeep (st_tail _ _) => apply hk_st_tail
  | |- hkeep (st_next _ _) => apply hk_st_next
  | |- hkeep (st_prev _ _) => apply hk_st_prev
  | |- hkeep (new_node _) => apply hk_new_node
  | |- hkeep (free_node _) => apply hk_free_node
  | |- hkeep diverge => apply hk_bad; discriminate
  | |- hkeep ub => apply hk_bad; discriminate
  | |- hkeep (match ?x with _ => _ end) => destruct x
  | |- hkeep (if ?x then _ else _) => destruct x
  end.
Lemma hk_link_init d p : hkeep (link_init (A := A) d p).
Proof. destruct d; cbn [link_init]; unfold dlink_init, slink_init; hk. Qed.
Lemma hk_link_add d p q : hkeep (link_add (A := A) d p q).
Proof. destruct d; cbn [link_add]; unfold dlink_add, slink_add; hk. Qed.
Lemma hk_link_del d p q : hkeep (link_del (A := A) d p q).
Proof. destruct d; cbn [link_del]; unfold dlink_del, slink_del; hk. Qed.
Lemma hk_empty id : hkeep (ll_empty (A := A) id).
Proof. unfold ll_empty. hk. Qed.
Lemma hk_pop_front d id : hkeep (ll_pop_front (A := A) d id).
Proof. unfold ll_pop_front. hk. apply hk_link_del. Qed.
Lemma hk_clear_loop d n id : hkeep (ll_clear_loop (A := A) d n id).
Proof. induction n as [|n IH]; cbn [ll_clear_loop]; hk; [apply hk_empty|apply hk_pop_front|exact IH]. Qed.
Lemma hk_clear d id : hkeep (ll_clear (A := A) d id).
Proof. unfold ll_clear. hk. apply hk_clear_loop. Qed.
Lemma hk_iter id : hkeep (ll_iter (A := A) id).
Proof.
  assert (G : forall n p q, hkeep (ll_iter_loop (A := A) n p q)) by (induction n as [|n IH]; intros p q; cbn [ll_iter_loop]; hk; apply IH).
  assert (H : forall n, hkeep (p <- ld_next (Head id) ;; p <- nonnull p ;; ll_iter_loop (A := A) n p (Head id))) by (intros n; hk; apply G).
  intros st x st' E. exact (H _ _ _ _ E).
Qed.
Lemma hk_riter id : hkeep (dl_riter (A := A) id).
Proof.
  assert (G : forall n p q, hkeep (dl_riter_loop (A := A) n p q)) by (induction n as [|n IH]; intros p q; cbn [dl_riter_loop]; hk; apply IH).
  assert (H : forall n, hkeep (p <- ld_next (Head id) ;; p <- nonnull p ;; dl_riter_loop (A := A) n (Head id) p)) by (intros n; hk; apply G).
  intros st x st' E. exact (H _ _ _ _ E).
Qed.
Lemma hk_dl_pop_back d id : hkeep (dl_pop_back (A := A) d id).
Proof. unfold dl_pop_back. hk. apply hk_link_del. Qed.
Lemma hk_sl_pop_front d id : hkeep (sl_pop_front (A := A) d id).
Proof. unfold sl_pop_front. hk. apply hk_pop_front. Qed.
Lemma hk_sl_pop_back id : hkeep (sl_pop_back (A := A) id).
Proof.
  assert (G : forall n p q, hkeep (sl_find_prev (A := A) n p q)) by (induction n as [|n IH]; intros p q; cbn [sl_find_prev]; hk; apply IH).
  unfold sl_pop_back. hk. intros ? ? ? HE. exact (G _ _ _ _ _ _ HE).
Qed.
Lemma hk_sl_clear d id : hkeep (sl_clear (A := A) d id).
Proof. unfold sl_clear. hk. apply hk_clear. Qed.

Lemma hp_push_front d id a : hput id a (ll_push_front d id a).
Proof. unfold ll_push_front. apply hp_bind; [apply hp_st_dat|]. intros _. hk. apply hk_link_add. Qed.
Lemma hp_sl_push_front d id a : hput id a (sl_push_front d id a).
Proof. unfold sl_push_front. apply hp_bind; [apply hp_push_front|]. intros _. hk. Qed.
Lemma hp_dl_push_back d id a : hput id a (dl_push_back d id a).
Proof. unfold dl_push_back. apply hp_bind; [apply hp_st_dat|]. intros _. hk. apply hk_link_add. Qed.
Lemma hp_sl_push_back d id a : hput id a (sl_push_back d id a).
Proof. unfold sl_push_back. apply hp_bind; [apply hp_st_dat|]. intros _. hk. apply hk_link_add. Qed.
Lemma hp_dl_fill d n id a : match n with O => hkeep (dl_fill_loop d n id a) | S _ => hput id a (dl_fill_loop d n id a) end.
Proof. induction n as [|n IH]; cbn [dl_fill_loop]; [hk|]. destruct n; [apply hp_bind|apply hp_again]; try apply hp_dl_push_back; intros _; exact IH. Qed.
Lemma hp_sl_fill d n id a : match n with O => hkeep (sl_fill_loop d n id a) | S _ => hput id a (sl_fill_loop d n id a) end.
Proof. induction n as [|n IH]; cbn [sl_fill_loop]; [hk|]. destruct n; [apply hp_bind|apply hp_again]; try apply hp_sl_push_back; intros _; exact IH. Qed.
Lemma hp_init d id : hput id junk (ll_init junk d id).
Proof.
  intros st x st' E i. unfold ll_init in E. destruct (l_size st !! id); [discriminate|]. rewrite (hk_link_init d _ _ _ _ E i). unfold hd, dt. cbn [l_cells].
  case_decide as Hi; [subst i; rewrite lookup_insert; reflexivity|rewrite lookup_insert_ne by congruence; reflexivity].
Qed.
Lemma hd_destroy d id st x st' : ll_destroy d id st = Ok (x, st') -> forall i, hd st' i = if decide (i = id) then None else hd st i.
Proof.
  unfold ll_destroy. intros E i. apply bind_inv in E as ([] & st1 & E1 & E2). injection E2 as _ <-. rewrite <- (hk_clear _ _ _ _ _ E1 i). unfold hd, dt. cbn [l_cells].
  case_decide as Hi; [subst i; rewrite lookup_delete; reflexivity|rewrite lookup_delete_ne by congruence; reflexivity].
Qed.
Lemma hd_move d id src st x st' : ll_move d id src st = Ok (x, st') -> forall i, hd st' i = if decide (i = id) then hd st src else hd st i.
Proof.
  unfold ll_move. intros E i. apply bind_inv in E as ([] & st1 & E1 & E). apply bind_inv in E as (c & st2 & E2 & E). apply bind_inv in E as ([] & st3 & E3 & E).
  assert (Hr : hkeep (n <- ld_size src ;; st_size id n ;;; link_init (A := A) d (Head src) ;;; st_size src 0)) by (hk; apply hk_link_init).
  rewrite (Hr _ _ _ E i). unfold ld in E2. destruct (l_cells st1 !! Head src) as [c0|] eqn:Es; [|discriminate]. injection E2 as -> <-.
  unfold stc in E3. destruct (l_cells st1 !! Head id) eqn:Ei; [|discriminate]. injection E3 as <-. rewrite <- (hk_clear _ _ _ _ _ E1 i), <- (hk_clear _ _ _ _ _ E1 src). unfold hd, dt. cbn [l_cells].
  case_decide as Hi; [subst i; rewrite lookup_insert, Es; reflexivity|rewrite lookup_insert_ne by congruence; reflexivity].
Qed.
Lemma hd_dl_move d id src st x st' : id <> src -> dl_move d id src st = Ok (x, st') -> forall i, hd st' i = if decide (i = id) then hd st src else hd st i.
Proof.
  intros Hne E i. unfold dl_move in E. rewrite (proj2 (Nat.eqb_neq _ _) Hne) in E. apply bind_inv in E as ([] & st1 & E1 & E). rewrite <- (hd_move _ _ _ _ _ _ E1 i).
  assert (Hr : hkeep (p <- ld_prev (Head id) ;; p <- nonnull p ;; st_next (A := A) p (Some (Head id)) ;;; n <- ld_next (Head id) ;; n <- nonnull n ;; st_prev n (Some (Head id)))) by hk. exact (Hr _ _ _ E i).
Qed.
Lemma hd_sl_move d id src st x st' : id <> src -> sl_move d id src st = Ok (x, st') -> forall i, hd st' i = if decide (i = id) then hd st src else hd st i.
Proof.
  intros Hne E i. unfold sl_move in E. rewrite (proj2 (Nat.eqb_neq _ _) Hne) in E. apply bind_inv in E as ([] & st1 & E1 & E). rewrite <- (hd_move _ _ _ _ _ _ E1 i).
  assert (Hr : hkeep (t <- ld_tail src ;; st_tail (A := A) id t ;;; st_next t (Some (Head id)) ;;; st_tail src (Head src))) by hk. exact (Hr _ _ _ E i).
Qed.

(** Copying pushes the elements of the source one by one. *)
Lemma hd_copy_loop id src ys : id <> src -> forall vs us lay st xs fuel p st',
  inv true lay st -> lay !! id = Some xs -> lay !! src = Some ys -> ys = us ++ vs ->
  head (nodes vs ++ [Head src]) = Some p -> dl_copy_loop true fuel id p (Head src) st = Ok (tt, st') ->
  forall i, hd st' i = if decide (i = id) then match last vs with Some (_, a) => Some a | None => hd st i end else hd st i.
Proof.
  intros Hne. induction vs as [|[a x] vs IH]; intros us lay st xs fuel p st' H Ei Es Ey Hp E i; (destruct fuel as [|fuel]; [discriminate|]); cbn [dl_copy_loop] in E; simpl in Hp; injection Hp as <-.
  - rewrite bool_decide_eq_true_2 in E by reflexivity. injection E as <-. case_decide; reflexivity.
  - rewrite bool_decide_eq_false_2 in E by discriminate.
    assert (Hin : (a, x) ∈ ys) by (rewrite Ey; apply elem_of_app; right; left).
    rewrite (bind_ok _ _ _ _ _ (ld_dat_ok _ _ _ (i_dat _ _ _ H _ _ a x Es Hin))) in E.
    destruct (dl_push_back_ok _ _ _ _ x H Ei) as [(st1 & n & R1 & Hi & Hf1)|[R1 Hr]]; [|rewrite (bind_abort _ _ _ R1) in E; discriminate].
    rewrite (bind_ok _ _ _ _ _ R1) in E.
    assert (Es1 : <[id := xs ++ [(n, x)]]> lay !! src = Some ys) by (rewrite lookup_insert_ne by congruence; exact Es).
    pose proof (i_ring _ _ _ Hi _ _ Es1) as Hring. rewrite Ey in Hring. unfold ringl in Hring. rewrite nodes_app in Hring. cbn [nodes fmap list_fmap] in Hring.
    rewrite <- app_assoc in Hring. simpl app in Hring. rewrite app_comm_cons in Hring. apply path_app in Hring as [_ Hring].
    fold (nodes vs) in Hring.
    destruct (nodes vs ++ [Head src]) as [|q l2] eqn:Eq; [destruct (nodes vs); discriminate|].
    destruct Hring as [[Hx _] _].
    rewrite (bind_ok _ _ _ _ _ (ld_next_ok' _ _ _ Hx)) in E. cbn [nonnull] in E. rewrite bind_ret in E.
    rewrite (IH (us ++ [(a, x)]) _ _ _ fuel q st' Hi (lookup_insert _ _ _) Es1 ltac:(rewrite <- app_assoc; exact Ey) eq_refl E i).
    rewrite (hp_dl_push_back _ _ _ _ _ _ R1 i). rewrite last_cons. destruct (last vs) as [[? ?]|]; case_decide; reflexivity.
Qed.
Lemma hd_dl_assign lay st id src xs ys st' : inv true lay st -> lay !! id = Some xs -> lay !! src = Some ys -> id <> src -> dl_assign true id src st = Ok (tt, st') ->
  forall i, hd st' i = if decide (i = id) then match last ys with Some (_, a) => Some a | None => hd st i end else hd st i.
Proof.
  intros H Ei Es Hne E i. unfold dl_assign in E. rewrite (proj2 (Nat.eqb_neq id src) Hne) in E.
  destruct (clear_ok _ _ _ _ _ H Ei) as (st1 & R1 & Hi & _ & Hf1). rewrite (bind_ok _ _ _ _ _ R1) in E.
  assert (Es1 : <[id := []]> lay !! src = Some ys) by (rewrite lookup_insert_ne by congruence; exact Es).
  pose proof (i_ring _ _ _ Hi _ _ Es1) as Hring. unfold ringl in Hring.
  destruct (nodes ys ++ [Head src]) as [|q l2] eqn:Eq; [destruct (nodes ys); discriminate|]. destruct Hring as [[Hx _] _].
  rewrite (bind_ok _ _ _ _ _ (ld_next_ok' _ _ _ Hx)) in E. cbn [nonnull] in E. rewrite bind_ret in E.
  rewrite (hd_copy_loop id src ys Hne ys [] _ _ [] _ q st' Hi (lookup_insert _ _ _) Es1 eq_refl ltac:(rewrite Eq; reflexivity) E i). rewrite (hk_clear _ _ _ _ _ R1 i). reflexivity.
Qed.
Lemma hd_sl_assign lay st id src xs st' : inv false lay st -> tails lay st -> lay !! id = Some xs -> lay !! src = Some [] -> id <> src -> sl_assign false id src st = Ok (tt, st') ->
  forall i, hd st' i = hd st i.
Proof.
  intros H Ht Ei Es Hne E i. unfold sl_assign in E. rewrite (proj2 (Nat.eqb_neq id src) Hne) in E.
  destruct (last (Head id :: nodes xs)) as [t|] eqn:El; [|apply last_None in El; discriminate].
  destruct (sl_clear_ok _ _ _ _ t H Ei) as (st2 & R2 & Hi2 & _); [rewrite (Ht _ _ Ei); exact El|]. rewrite (bind_ok _ _ _ _ _ R2) in E.
  erewrite bind_ok in E by (apply ld_size_ok; apply (size_of _ _ _ src [] Hi2); rewrite lookup_insert_ne by congruence; exact Es). cbn [length Nat.eqb] in E. injection E as <-. exact (hk_sl_clear _ _ _ _ _ R2 i).
Qed.

(** One call. *)
Lemma unit_inv (m : L unit) st r st' : unit_out m st = Ok (r, st') -> m st = Ok (tt, st').
Proof. unfold unit_out. intros E. apply bind_inv in E as ([] & st1 & E1 & E2). injection E2 as _ <-. exact E1. Qed.
Lemma hk_unit (m : L unit) : hkeep m -> hkeep (unit_out m).
Proof. intros H. unfold unit_out. hk. exact H. Qed.
Definition agree (h : gmap nat A) st : Prop := forall i, hd st i = h !! i.
Lemma agree_keep h {X} (m : L X) st x st' : agree h st -> hkeep m -> m st = Ok (x, st') -> agree h st'.
Proof. intros Ha Hm E i. rewrite (Hm _ _ _ E i). apply Ha. Qed.
Lemma agree_put h id a {X} (m : L X) st x st' : agree h st -> hput id a m -> m st = Ok (x, st') -> agree (<[id := a]> h) st'.
Proof. intros Ha Hm E i. rewrite (Hm _ _ _ E i). case_decide as Hi; [subst i; rewrite lookup_insert; reflexivity|rewrite lookup_insert_ne by congruence; apply Ha]. Qed.
Lemma last_ren f (l : list (nat * A)) : last (renl f l) = (fun nx => (f nx.1, nx.2)) <$> last l.
Proof. unfold renl. rewrite fmap_last. reflexivity. Qed.

Lemma held_last f (l : gmap nat (list (nat * A))) id ys : l !! id = Some ys -> last_pushed l id = match last (renl f ys) with Some (_, a) => Some a | None => None end.
Proof. intros E. unfold last_pushed. rewrite E, last_ren. destruct (last ys) as [[? ?]|]; reflexivity. Qed.
Lemma agree_copied h id (l : gmap nat (list (nat * A))) f src ys st st' : l !! src = Some ys -> agree h st ->
  (forall i, hd st' i = if decide (i = id) then match last (renl f ys) with Some (_, a) => Some a | None => hd st i end else hd st i) ->
  agree (match last_pushed l src with Some a => <[id := a]> h | None => h end) st'.
Proof.
  intros E Ha G i. rewrite (held_last f _ _ _ E), G. destruct (last (renl f ys)) as [[? a]|]; case_decide as Hi; subst; rewrite ?lookup_insert, ?lookup_insert_ne by congruence; first [reflexivity|apply Ha].
Qed.
Lemma agree_moved h id src st st' : agree h st -> is_Some (h !! src) -> (forall i, hd st' i = if decide (i = id) then hd st src else hd st i) ->
  agree (match h !! src with Some a => <[id := a]> h | None => h end) st'.
Proof.
  intros Ha [a E] G i. rewrite E, G. case_decide as Hi; [subst i; rewrite lookup_insert, <- E; apply Ha|rewrite lookup_insert_ne by congruence; apply Ha].
Qed.
Lemma agree_some d f (l : gmap nat (list (nat * A))) h st id xs : inv d (ren f l) st -> agree h st -> l !! id = Some xs -> is_Some (h !! id).
Proof. intros H Ha E. rewrite <- Ha. apply (i_heads _ _ _ H). rewrite (ren_some f _ _ _ E). eauto. Qed.
Lemma agree_gone h id st st' : agree h st -> (forall i, hd st' i = if decide (i = id) then None else hd st i) -> agree (delete id h) st'.
Proof. intros Ha G i. rewrite G. case_decide as Hi; [subst i; rewrite lookup_delete; reflexivity|rewrite lookup_delete_ne by congruence; apply Ha]. Qed.

Lemma dl_held f l n its st o r s' st' h : inv true (ren f l) st -> agree h st -> lists_step true o (ISpec l n its) = SVal (r, s') -> dl_step junk o st = Ok (r, st') -> agree (held_list junk o l h) st'.
Proof.
  intros H Ha Es E. unfold lists_step in Es. destruct o; cbn [op_map ls_step dl_step s_lists s_next held_list] in *; unfold no_list, with_list in Es; try apply unit_inv in E.
  - eapply agree_put; [exact Ha|apply hp_init|exact E].
  - apply bind_inv in E as ([] & st1 & E1 & E2). pose proof (agree_put _ _ _ _ _ _ _ Ha (hp_init _ _) E1) as Ha1. pose proof (hp_dl_fill true n0 id a) as Hf. destruct n0.
    + eapply agree_keep; eassumption.
    + intros i. rewrite (agree_put _ _ _ _ _ _ _ Ha1 Hf E2 i), insert_insert. reflexivity.
  - destruct (l !! id) eqn:Ei; [discriminate|]. destruct (l !! src) as [ys|] eqn:Ej; [|discriminate]. assert (Hne : id <> src) by congruence.
    apply bind_inv in E as ([] & st1 & E1 & E2). pose proof (agree_put _ _ _ _ _ _ _ Ha (hp_init _ _) E1) as Ha1.
    assert (Ei' : ren f l !! id = None) by (unfold ren; rewrite lookup_fmap, Ei; reflexivity).
    destruct (init_ok junk true _ _ _ H Ei') as (st1' & R1 & Hi & _). rewrite E1 in R1. injection R1 as <-.
    assert (Ej' : <[id := []]> (ren f l) !! src = Some (renl f ys)) by (rewrite lookup_insert_ne by exact Hne; apply ren_some; exact Ej).
    pose proof (agree_copied _ id l f src ys _ _ Ej Ha1 (hd_dl_assign _ _ _ _ _ _ _ Hi (lookup_insert _ _ _) Ej' Hne E2)) as G.
    destruct (last_pushed l src); cbn [default]; [rewrite insert_insert in G|]; exact G.
  - destruct (l !! id) eqn:Ei; [discriminate|]. destruct (l !! src) as [ys|] eqn:Ej; [|discriminate]. assert (Hne : id <> src) by congruence. rewrite (proj2 (Nat.eqb_neq _ _) Hne).
    apply bind_inv in E as ([] & st1 & E1 & E2). pose proof (agree_put _ _ _ _ _ _ _ Ha (hp_init _ _) E1) as Ha1. destruct (agree_some _ _ _ _ _ _ _ H Ha Ej) as [a Ea].
    assert (Ea1 : <[id := junk]> h !! src = Some a) by (rewrite lookup_insert_ne by exact Hne; exact Ea).
    pose proof (agree_moved _ id src _ _ Ha1 (mk_is_Some _ _ Ea1) (hd_dl_move _ _ _ _ _ _ Hne E2)) as G. rewrite Ea1, insert_insert in G. rewrite Ea. exact G.
  - destruct (l !! id) as [xs|] eqn:Ei; [|discriminate]. destruct (l !! src) as [ys|] eqn:Ej; [|discriminate].
    destruct (Nat.eqb_spec id src) as [->|Hne]; [unfold dl_assign in E; rewrite Nat.eqb_refl in E; injection E as <-; exact Ha|].
    exact (agree_copied _ id l f src ys _ _ Ej Ha (hd_dl_assign _ _ _ _ _ _ _ H (ren_some f _ _ _ Ei) (ren_some f _ _ _ Ej) Hne E)).
  - destruct (l !! id) as [xs|] eqn:Ei; [|discriminate]. destruct (l !! src) as [ys|] eqn:Ej; [|discriminate].
    destruct (Nat.eqb_spec id src) as [->|Hne]; [unfold dl_move in E; rewrite Nat.eqb_refl in E; injection E as <-; exact Ha|].
    exact (agree_moved _ id src _ _ Ha (agree_some _ _ _ _ _ _ _ H Ha Ej) (hd_dl_move _ _ _ _ _ _ Hne E)).
  - exact (agree_gone _ _ _ _ Ha (hd_destroy _ _ _ _ _ E)).
  - exact (agree_keep _ _ _ _ _ Ha (hk_clear _ _) E).
  - exact (agree_put _ _ _ _ _ _ _ Ha (hp_push_front _ _ _) E).
  - exact (agree_put _ _ _ _ _ _ _ Ha (hp_dl_push_back _ _ _) E).
  - exact (agree_keep _ _ _ _ _ Ha (hk_pop_front _ _) E).
  - exact (agree_keep _ _ _ _ _ Ha (hk_dl_pop_back _ _) E).
  - exact (agree_put _ _ _ _ _ _ _ Ha (hp_push_front _ _ _) E).
  - exact (agree_keep _ _ _ _ _ Ha (hk_pop_front _ _) E).
  - refine (agree_keep _ _ _ _ _ Ha _ E). unfold ll_front. hk.
  - refine (agree_keep _ _ _ _ _ Ha _ E). unfold dl_back. hk.
  - refine (agree_keep _ _ _ _ _ Ha _ E). hk.
  - refine (agree_keep _ _ _ _ _ Ha _ E). hk. apply hk_empty.
  - refine (agree_keep _ _ _ _ _ Ha _ E). hk. apply hk_iter.
  - refine (agree_keep _ _ _ _ _ Ha _ E). hk. apply hk_riter.
Qed.
Lemma sl_held f l n its st o r s' st' h : inv false (ren f l) st -> tails (ren f l) st -> agree h st -> lists_step false o (ISpec l n its) = SVal (r, s') -> sl_step junk o st = Ok (r, st') -> agree (held_list junk o l h) st'.
Proof.
  intros H Ht Ha Es E. unfold lists_step in Es. destruct o; cbn [op_map ls_step sl_step s_lists s_next held_list] in *; unfold no_list, with_list in Es; try apply unit_inv in E.
  - eapply agree_put; [exact Ha|apply hp_init|exact E].
  - apply bind_inv in E as ([] & st1 & E1 & E2). pose proof (agree_put _ _ _ _ _ _ _ Ha (hp_init _ _) E1) as Ha1. pose proof (hp_sl_fill false n0 id a) as Hf. destruct n0.
    + eapply agree_keep; eassumption.
    + intros i. rewrite (agree_put _ _ _ _ _ _ _ Ha1 Hf E2 i), insert_insert. reflexivity.
  - destruct (l !! id) eqn:Ei; [discriminate|]. destruct (l !! src) as [[|? ?]|] eqn:Ej; [|discriminate|discriminate]. assert (Hne : id <> src) by congruence.
    apply bind_inv in E as ([] & st1 & E1 & E2). pose proof (agree_put _ _ _ _ _ _ _ Ha (hp_init _ _) E1) as Ha1.
    assert (Ei' : ren f l !! id = None) by (unfold ren; rewrite lookup_fmap, Ei; reflexivity).
    destruct (init_ok junk false _ _ _ H Ei') as (st1' & R1 & Hi & Ht1 & _). rewrite E1 in R1. injection R1 as <-.
    assert (Ej' : <[id := []]> (ren f l) !! src = Some []) by (rewrite lookup_insert_ne by exact Hne; exact (ren_some f _ _ _ Ej)).
    assert (Ht1' : tails (<[id := []]> (ren f l)) st1) by (eapply tails_insert; [exact Ht|exact Ht1|reflexivity]).
    unfold last_pushed. rewrite Ej. cbn [last fmap option_fmap option_map default]. intros i. rewrite (hd_sl_assign _ _ _ _ _ _ Hi Ht1' (lookup_insert _ _ _) Ej' Hne E2 i). apply Ha1.
  - destruct (l !! id) eqn:Ei; [discriminate|]. destruct (l !! src) as [ys|] eqn:Ej; [|discriminate]. assert (Hne : id <> src) by congruence. rewrite (proj2 (Nat.eqb_neq _ _) Hne).
    apply bind_inv in E as ([] & st1 & E1 & E2). pose proof (agree_put _ _ _ _ _ _ _ Ha (hp_init _ _) E1) as Ha1. destruct (agree_some _ _ _ _ _ _ _ H Ha Ej) as [a Ea].
    assert (Ea1 : <[id := junk]> h !! src = Some a) by (rewrite lookup_insert_ne by exact Hne; exact Ea).
    pose proof (agree_moved _ id src _ _ Ha1 (mk_is_Some _ _ Ea1) (hd_sl_move _ _ _ _ _ _ Hne E2)) as G. rewrite Ea1, insert_insert in G. rewrite Ea. exact G.
  - destruct (l !! id) as [xs|] eqn:Ei; [|discriminate]. destruct (l !! src) as [ys|] eqn:Ej; [|discriminate].
    destruct (Nat.eqb_spec id src) as [->|Hne]; [unfold sl_assign in E; rewrite Nat.eqb_refl in E; injection E as <-; exact Ha|].
    destruct ys; [|discriminate]. unfold last_pushed. rewrite Ej. cbn [last fmap option_fmap option_map]. intros i.
    rewrite (hd_sl_assign _ _ _ _ _ _ H Ht (ren_some f _ _ _ Ei) (ren_some f _ _ _ Ej) Hne E i). apply Ha.
  - destruct (l !! id) as [xs|] eqn:Ei; [|discriminate]. destruct (l !! src) as [ys|] eqn:Ej; [|discriminate].
    destruct (Nat.eqb_spec id src) as [->|Hne]; [unfold sl_move in E; rewrite Nat.eqb_refl in E; injection E as <-; exact Ha|].
    exact (agree_moved _ id src _ _ Ha (agree_some _ _ _ _ _ _ _ H Ha Ej) (hd_sl_move _ _ _ _ _ _ Hne E)).
  - exact (agree_gone _ _ _ _ Ha (hd_destroy _ _ _ _ _ E)).
  - exact (agree_keep _ _ _ _ _ Ha (hk_sl_clear _ _) E).
  - exact (agree_put _ _ _ _ _ _ _ Ha (hp_sl_push_front _ _ _) E).
  - exact (agree_put _ _ _ _ _ _ _ Ha (hp_sl_push_back _ _ _) E).
  - exact (agree_keep _ _ _ _ _ Ha (hk_sl_pop_front _ _) E).
  - exact (agree_keep _ _ _ _ _ Ha (hk_sl_pop_back _) E).
  - exact (agree_put _ _ _ _ _ _ _ Ha (hp_push_front _ _ _) E).
  - exact (agree_keep _ _ _ _ _ Ha (hk_pop_front _ _) E).
  - refine (agree_keep _ _ _ _ _ Ha _ E). unfold ll_front. hk.
  - refine (agree_keep _ _ _ _ _ Ha _ E). unfold sl_back. hk.
  - refine (agree_keep _ _ _ _ _ Ha _ E). hk.
  - refine (agree_keep _ _ _ _ _ Ha _ E). hk. apply hk_empty.
  - refine (agree_keep _ _ _ _ _ Ha _ E). hk. apply hk_iter.
  - discriminate.
Qed.

(** Histories. *)
Context (dbl : bool) (pol : policy).
Notation iR := (iR (A := A) dbl pol).
Definition hR (sh : @ispec A * gmap nat A) (w : iworld A) : Prop := iR (fst sh) w /\ agree (snd sh) (fst w).
Notation F := (fun sh : @ispec A * gmap nat A => refuses pol (elements_total (strip (s_lists (fst sh))))).

Definition on_end (o : iop A) (s : @ispec A) : bool :=
  match o with IRead k | IWrite k _ => match s_its s !! k with Some (EndOf _) => true | _ => false end | _ => false end.
Definition next_held (o : iop A) (s : @ispec A) (h : gmap nat A) : gmap nat A := match o with IList o => held_list junk o (s_lists s) h | _ => h end.
Lemma hs_dflt o s h : on_end o s = false -> hs_step junk dbl o (s, h) =
  match is_step dbl o s with SVal (r, s') => SVal (r, (s', next_held o s h)) | SAbort => SAbort | SUnspec => SUnspec end.
Proof. destruct o; cbn [hs_step on_end next_held]; try reflexivity; destruct (s_its s !! k) as [[?|?]|]; first [discriminate|reflexivity]. Qed.

Lemma on_lists_inv {X} (m : M (lst A) X) w x w' : on_lists m w = Ok (x, w') -> m (fst w) = Ok (x, fst w') /\ snd w' = snd w.
Proof. unfold on_lists. destruct (m (fst w)) as [[y st]| | |]; try discriminate. intros [= <- <-]. auto. Qed.
(** Everything but calls and writes leaves the lists as they are. *)
Definition ikeep {X} (m : M (iworld A) X) : Prop := forall w x w', m w = Ok (x, w') -> forall i, hd (fst w') i = hd (fst w) i.
Lemma ik_bind {X Y} (m : M (iworld A) X) (f : X -> M (iworld A) Y) : ikeep m -> (forall x, ikeep (f x)) -> ikeep (bind m f).
Proof. intros Hm Hf st y st' E i. apply bind_inv in E as (x & st1 & E1 & E2). rewrite (Hf x _ _ _ E2). exact (Hm _ _ _ E1 i). Qed.
Lemma ik_ret {X} (x : X) : ikeep (ret x).
Proof. intros w y w' [= _ <-] i. reflexivity. Qed.
Lemma ik_get k : ikeep (get_it k).
Proof. intros w x w' E i. unfold get_it in E. destruct (snd w !! k); [injection E as _ <-; reflexivity|discriminate]. Qed.
Lemma ik_set k p : ikeep (set_it k p).
Proof. intros w x w' [= _ <-] i. reflexivity. Qed.
Lemma ik_on {X} (m : M (lst A) X) : hkeep m -> ikeep (on_lists m).
Proof. intros Hm w x w' E i. apply on_lists_inv in E as [E _]. exact (Hm _ _ _ E i). Qed.
Lemma ik_ub {X} : ikeep (@ub (iworld A) X).
Proof. intros w x w' E. discriminate. Qed.
Ltac ik := repeat match goal with
  | |- ikeep (bind _ _) => apply ik_bind; [|intros ?]
  | |- ikeep (ret _) => apply ik_ret
  | |- ikeep (get_it _) => apply ik_get
  | |- ikeep (set_it _ _) => apply ik_set
  | |- ikeep (on_lists _) => apply ik_on
  | |- ikeep ub => apply ik_ub
  | |- ikeep (if ?x then _ else _) => destruct x
  end; hk.
Lemma ik_step o : match o with IList _ | IWrite _ _ => True | _ => ikeep (it_step junk dbl o) end.
Proof. destruct o; try exact I; cbn [it_step]; unfold it_begin, it_end, it_next, it_prev; ik. Qed.

Lemma inv_head d lay st id a C' : inv d lay st -> is_Some (hd st id) -> (forall r, nx C' r = nx (l_cells st) r) -> (forall r, pv C' r = pv (l_cells st) r) ->
  (forall r, dt C' r = if decide (r = Head id) then Some a else dt (l_cells st) r) -> inv d lay (set_cells C' st).
Proof.
  intros [I1 I2 I3 I4 I5 I6 I7 I8 I9 I10] Hd N P D. constructor; cbn [set_cells l_cells l_al l_size]; try assumption.
  - intros i xs E. eapply path_frame; [exact (I1 i xs E)| |]; intros; auto.
  - intros i xs b x E Hx. rewrite D, decide_False by discriminate. eauto.
  - intros b. rewrite D, decide_False by discriminate. apply I5.
  - intros i. rewrite D. case_decide as Hi; [injection Hi as ->; rewrite <- I6; split; [intros _; exact Hd|eauto]|apply I6].
  - intros b. rewrite D, decide_False by discriminate. exact (I8 b).
Qed.
Lemma hs_step_or o sh w : hR sh w -> magree_or hR F (hs_step junk dbl o sh) (it_step junk dbl o w).
Proof.
  destruct sh as [s h]. intros [HR Ha]. cbn [fst snd] in HR, Ha. destruct (on_end o s) eqn:Eo.
  - (* at the end of a list *)
    destruct o as [| | | | | | | |k|k a| |]; try discriminate; cbn [on_end hs_step it_step] in *; (destruct (s_its s !! k) as [[?|id]|] eqn:Ek; try discriminate);
      (destruct (h !! id) as [b|] eqn:Eh; [|exact I]); destruct HR as (f & HR); pose proof (get_it_ok _ _ _ _ _ _ _ HR Ek) as G; cbn [pos] in G; rewrite (bind_ok _ _ _ _ _ G);
      pose proof (Ha id) as Hd; rewrite Eh in Hd.
    + left. exists w. split; [|split; [exists f; exact HR|exact Ha]]. erewrite bind_ok by (apply on_lists_same, ld_dat_ok; exact Hd). reflexivity.
    + destruct (st_dat_ok (fst w) (Head id) a (mk_is_Some _ _ Hd)) as (C' & R & N & P & D). left. exists (set_cells C' (fst w), snd w). split; [erewrite bind_ok by (apply on_lists_ok; exact R); reflexivity|]. split; cbn [fst snd].
      * exists f. destruct HR as (H1 & H2 & H3 & H4 & H5 & H6). split; [|split; [|auto]]; [|exact H2]. cbn [fst]. exact (inv_head _ _ _ _ _ _ H1 (mk_is_Some _ _ Hd) N P D).
      * exact (agree_put _ _ _ _ _ _ _ Ha (hp_st_dat id a) R).
  - rewrite (hs_dflt _ _ _ Eo). pose proof (it_step_or junk dbl pol o s w HR) as St. destruct (is_step dbl o s) as [[r s']| |] eqn:Es; [|exact St|exact I].
    destruct St as [(w' & R & HR')|[R Hr]]; [|right; split; [exact R|exact Hr]]. left. exists w'. split; [exact R|]. split; [exact HR'|]. cbn [snd fst].
    pose proof (ik_step o) as Hk. destruct o as [o| | | | | | | | |k a| |]; try (intros i; rewrite (Hk _ _ _ R i); apply Ha); cbn [next_held].
    + cbn [it_step is_step] in R, Es. apply on_lists_inv in R as [R _]. destruct HR as (f & H1 & H2 & _). destruct s as [l n its]. cbn [s_lists] in *. pose proof (dl_held f l n its) as G1. pose proof (sl_held f l n its) as G2.
      clear - H1 H2 Ha Es R G1 G2. destruct dbl; [eapply G1; eassumption|eapply G2; try eassumption; apply H2; reflexivity].
    + cbn [it_step is_step on_end] in R, Es, Eo. unfold with_it in Es. destruct (s_its s !! k) as [[m|?]|] eqn:Ek; try discriminate. destruct HR as (f & HR). pose proof (get_it_ok _ _ _ _ _ _ _ HR Ek) as G. cbn [pos] in G.
      rewrite (bind_ok _ _ _ _ _ G) in R. apply bind_inv in R as ([] & w1 & R1 & R2). injection R2 as _ <-. apply on_lists_inv in R1 as [R1 _]. exact (agree_keep _ _ _ _ _ Ha (hk_st_dat _ _) R1).
Qed.
Lemma hR_init : sound pol -> hR hspec0 (lst_init pol, ∅).
Proof. intros Hs. split; [exact (iR_init dbl pol Hs)|]. intros i. unfold hd, dt. cbn [fst snd hspec0 lst_init l_cells]. rewrite !lookup_empty. reflexivity. Qed.
Lemma hs_run ops : sound pol ->
  match srun (hs_step junk dbl) ops hspec0 with
  | SVal (rs, s) => (exists w, mrun (it_step junk dbl) ops (lst_init pol, ∅) = Ok (rs, w) /\ hR s w) \/
      (mrun (it_step junk dbl) ops (lst_init pol, ∅) = Abort /\
       exists ops1 ops2 rs1 s1, ops = ops1 ++ ops2 /\ srun (hs_step junk dbl) ops1 hspec0 = SVal (rs1, s1) /\ F s1)
  | SAbort => mrun (it_step junk dbl) ops (lst_init pol, ∅) = Abort
  | SUnspec => True
  end.
Proof. intros Hs. exact (mrun_agree_or (it_step junk dbl) (hs_step junk dbl) hR F hs_step_or ops hspec0 (lst_init pol, ∅) (hR_init Hs)). Qed.
End Held.

Theorem held_history_or : forall (A : Type) (junk : A) (dbl : bool) (pol : policy) (ops : list (iop A)), sound pol ->
  match srun (hs_step junk dbl) ops hspec0 with
  | SVal (rs, _) => (exists w, mrun (it_step junk dbl) ops (lst_init pol, ∅) = Ok (rs, w)) \/
      (mrun (it_step junk dbl) ops (lst_init pol, ∅) = Abort /\
       exists ops1 ops2 rs1 s1, ops = ops1 ++ ops2 /\ srun (hs_step junk dbl) ops1 hspec0 = SVal (rs1, s1) /\ refuses pol (elements_total (strip (s_lists (fst s1)))))
  | SAbort => mrun (it_step junk dbl) ops (lst_init pol, ∅) = Abort
  | SUnspec => True
  end.
Proof.
  intros A junk dbl pol ops Hs. pose proof (hs_run junk dbl pol ops Hs) as H. destruct (srun _ ops hspec0) as [[rs s]| |]; [|exact H|exact I].
  destruct H as [(w & R & _)|H]; [left; eauto|right; exact H].
Qed.
Theorem held_history : forall (A : Type) (junk : A) (dbl : bool) (pol : policy) (ops : list (iop A)), sound pol -> grants pol ->
  match srun (hs_step junk dbl) ops hspec0 with
  | SVal (rs, _) => exists w, mrun (it_step junk dbl) ops (lst_init pol, ∅) = Ok (rs, w)
  | SAbort => mrun (it_step junk dbl) ops (lst_init pol, ∅) = Abort
  | SUnspec => True
  end.
Proof.
  intros A junk dbl pol ops Hs Hg. pose proof (held_history_or A junk dbl pol ops Hs) as H. destruct (srun _ ops hspec0) as [[rs s]| |]; [|exact H|exact I].
  destruct H as [H|(_ & ops1 & ops2 & rs1 & s1 & _ & _ & Hr)]; [exact H|]. destruct (grants_refuses _ _ Hg Hr).
Qed.
(** Every list object holds one value besides its elements, at all times. *)
Theorem held_one : forall (A : Type) (junk : A) (dbl : bool) (ops : list (iop A)) rs s h id,
  srun (hs_step junk dbl) ops hspec0 = SVal (rs, (s, h)) -> (is_Some (h !! id) <-> is_Some (s_lists s !! id)).
Proof.
  intros A junk dbl ops rs s h id E. pose proof (hs_run junk dbl bump ops bump_sound) as H. rewrite E in H.
  destruct H as [(w & _ & (f & Hi & _) & Ha)|(_ & ops1 & ops2 & rs1 & s1 & _ & _ & Hr)]; [|destruct (grants_refuses _ _ bump_grants Hr)].
  cbn [fst snd] in *. rewrite <- (Ha id). unfold hd. rewrite (i_heads _ _ _ Hi). unfold ren. rewrite lookup_fmap. destruct (s_lists s !! id); cbn; split; intros [? ?]; eauto; discriminate.
Qed.
Ltac hstep H := unfold lists_step, with_list, no_list in H; cbn [srun hs_step is_step lists_step op_map ls_step with_list no_list held_list out_map s_lists s_next s_its fmap option_fmap option_map move_it set_at app] in H.
(** A value pushed and popped again is still there. *)
Theorem held_popped : forall (A : Type) (junk : A) (dbl : bool) (pol : policy) (ops : list (iop A)) rs s h id k x, sound pol -> grants pol ->
  srun (hs_step junk dbl) ops hspec0 = SVal (rs, (s, h)) -> is_Some (s_lists s !! id) ->
  exists w, mrun (it_step junk dbl) (ops ++ [IList (LPushFront id x); IList (LPopFront id); IEnd k id; IRead k]) (lst_init pol, ∅) = Ok (rs ++ [RUnit; RUnit; RUnit; RVal x], w).
Proof.
  intros A junk dbl pol ops rs s h id k x Hs Hg E [l El]. pose proof (held_history A junk dbl pol (ops ++ [IList (LPushFront id x); IList (LPopFront id); IEnd k id; IRead k]) Hs Hg) as H.
  rewrite srun_app, E in H. repeat (progress (hstep H; rewrite ?El, ?lookup_insert in H)). exact H.
Qed.
(** The object moved from keeps a copy as well. *)
Theorem held_moved : forall (A : Type) (junk : A) (dbl : bool) (pol : policy) (ops : list (iop A)) rs s h id src k x xs, sound pol -> grants pol ->
  srun (hs_step junk dbl) ops hspec0 = SVal (rs, (s, h)) -> s_lists s !! id = None -> s_lists s !! src = Some xs ->
  exists w, mrun (it_step junk dbl) (ops ++ [IList (LPushBack src x); IList (LMoveNew id src); IList (LClear id); IEnd k id; IRead k; IEnd k src; IRead k]) (lst_init pol, ∅) = Ok (rs ++ [RUnit; RUnit; RUnit; RUnit; RVal x; RUnit; RVal x], w).
Proof.
  intros A junk dbl pol ops rs s h id src k x xs Hs Hg E Ei El.
  pose proof (held_history A junk dbl pol (ops ++ [IList (LPushBack src x); IList (LMoveNew id src); IList (LClear id); IEnd k id; IRead k; IEnd k src; IRead k]) Hs Hg) as H.
  assert (Hne : id <> src) by congruence. assert (Hne' : src <> id) by congruence.
  rewrite srun_app, E in H. destruct xs as [|y xs];
    repeat (progress (hstep H; rewrite ?El, ?Ei, ?lookup_insert, ?(proj2 (Nat.eqb_neq _ _) Hne), ?(lookup_insert_ne _ src id _ Hne'), ?(lookup_insert_ne _ id src _ Hne) in H)); exact H.
Qed.

