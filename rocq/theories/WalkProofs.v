(** How many rounds the loops of tree iterators run. *)
From Coq Require Import Sorted.
From Verif Require Import Base Alloc AllocProofs VectorModel VectorSpec Adapter Hist.
From Verif Require Import TreeModel TreeSpec TreeBase TreeSets TreeRot TreeIns TreeZip TreeSwap TreeDel TreeErase TreeIter TreeObj TreeWorld TreeWSpec TreeHist TreeRefute TreeHeight WalkModel.
Local Open Scope nat_scope.

Section Walks.
Context {A : Type}.
Notation tree := (atree A).
Implicit Types (h : gmap nat (node A)) (t l r : tree) (x : A) (C : list (frame A)) (F : frame A).

(** With the limit that is never reached these are the model's functions. *)
Lemma next_same (o : ttype) p (s : tst A) : next_of o p s = next_within o (S (S (size (t_heap s)))) p s.
Proof.
  destruct p as [a|]; [|destruct o; reflexivity].
  destruct o; unfold next_of, next_preorder, next_inorder, next_postorder, next_within, bind, ld_left, ld_right, ldn, fuel, ret; cbn [is_null];
    unfold bind, ret; destruct (t_heap s !! a) as [n|] eqn:E; try reflexivity.
  destruct (n_left n); cbn [is_null negb]; [reflexivity|]. rewrite E. destruct (n_right n); reflexivity.
Qed.
Lemma first_same (o : ttype) p (s : tst A) : first_node p o s = first_within o (S (S (size (t_heap s)))) p s.
Proof. destruct o; reflexivity. Qed.

(** Rounds: down to the leftmost node, up in order, up in pre-order. *)
Fixpoint lsp t : nat := match t with Lf => 0 | Br l _ _ _ _ => S (lsp l) end.
Fixpoint ups C : nat := match C with FR _ _ _ _ :: C => S (ups C) | _ => 1 end.
Fixpoint uppn C : nat :=
  match C with
  | [] => 1
  | FL _ _ _ Lf :: C => S (uppn C)
  | FL _ _ _ (Br _ _ _ _ _) :: _ => 1
  | FR _ _ _ _ :: C => S (uppn C)
  end.
Lemma down_left_n t : forall fl h f rt z par b y, t <> Lf -> linked h par t -> minA t = Some (b, y) ->
  down_left fl (rootp t) (TSt h f rt z) = if lsp t <=? fl then Ok (Some b, TSt h f rt z) else Diverge.
Proof.
  induction t as [|l IHl a hh v r _]; intros fl h f rt z par b y Hn H Hm; [congruence|].
  destruct fl as [|fl]; [reflexivity|]. pose proof H as (Ha & Hl & _). cbn [rootp down_left lsp]. hgo.
  destruct (lf_dec l) as [->|Hnl].
  - cbn [rootp is_null]. cbn in Hm. injection Hm as -> ->. cbn. reflexivity.
  - rewrite minA_Br in Hm by exact Hnl. destruct l as [|l1 c hc w l2]; [congruence|]. cbn [rootp is_null].
    apply (IHl fl _ _ _ _ (Some a) b y Hnl Hl Hm).
Qed.
Lemma up_in_n C : forall fl h f rt z t, t <> Lf -> nd (plug C t) -> linked h None (plug C t) ->
  up_in fl (rootp t) (TSt h f rt z) = if ups C <=? fl then Ok (upres C, TSt h f rt z) else Diverge.
Proof.
  induction C as [|F C IH]; intros fl h f rt z t Ht Hn H.
  - destruct fl as [|fl]; [reflexivity|]. cbn [plug] in H. destruct t as [|l a hh x r]; [congruence|]. destruct H as (Ha & _). cbn [rootp up_in]. hgo. reflexivity.
  - destruct fl as [|fl]; [destruct F; reflexivity|]. cbn [up_in].
    pose proof (linked_unplug _ _ _ H) as Ht1. cbn [hpar] in Ht1. destruct t as [|l a hh x r]; [congruence|].
    destruct Ht1 as (Ha & _). cbn [plug] in H, Hn. pose proof (linked_unplug _ _ _ H) as Hf. pose proof (nd_unplug _ _ Hn) as Hnf.
    cbn [rootp]. destruct F as [b hb y rb|lb b hb y]; cbn [fa fill1 upres ups] in *; destruct Hf as (Hb & _); hgo.
    + cbn [rootp]. rewrite ptr_eqb_refl. reflexivity.
    + rewrite ptr_eqb_ne.
      2:{ intros E. apply rootp_cnt in E. specialize (Hnf a). cbn [cnt] in Hnf. rewrite one_eq in Hnf. lia. }
      apply (IH fl h f rt z (Br lb b hb y (Br l a hh x r)) ltac:(discriminate) Hn H).
Qed.
Lemma up_pre_n C : forall fl h f rt z t, t <> Lf -> nd (plug C t) -> linked h None (plug C t) ->
  up_pre fl (rootp t) (TSt h f rt z) = if uppn C <=? fl then Ok (upp C, TSt h f rt z) else Diverge.
Proof.
  induction C as [|F C IH]; intros fl h f rt z t Ht Hn H.
  - destruct fl as [|fl]; [reflexivity|]. cbn [plug] in H. destruct t as [|l a hh x r]; [congruence|]. destruct H as (Ha & _). cbn [rootp up_pre]. hgo. reflexivity.
  - destruct fl as [|fl]; [destruct F as [? ? ? []|]; reflexivity|]. cbn [up_pre].
    pose proof (linked_unplug _ _ _ H) as Ht1. cbn [hpar] in Ht1. destruct t as [|l a hh x r]; [congruence|].
    destruct Ht1 as (Ha & _). cbn [plug] in H, Hn. pose proof (linked_unplug _ _ _ H) as Hf. pose proof (nd_unplug _ _ Hn) as Hnf.
    cbn [rootp]. destruct F as [b hb y rb|lb b hb y]; cbn [fa fill1 upp uppn] in *; destruct Hf as (Hb & _); hgo.
    + destruct rb as [|r1 c hc w r2]; cbn [rootp is_null negb andb].
      * apply (IH fl h f rt z (Br (Br l a hh x r) b hb y Lf) ltac:(discriminate) Hn H).
      * rewrite ptr_eqb_ne; [reflexivity|]. intros [= ->].
        specialize (Hnf a). cbn [cnt] in Hnf. rewrite one_eq in Hnf. lia.
    + cbn [rootp is_null negb andb]. rewrite ptr_eqb_refl. cbn [negb].
      apply (IH fl h f rt z (Br lb b hb y (Br l a hh x r)) ltac:(discriminate) Hn H).
Qed.

(** One ++. *)
Definition inc C r : nat := match r with Lf => ups C | _ => lsp r end.
Definition prec C l r : nat := match l, r with Lf, Lf => uppn C | _, _ => 0 end.
Lemma next_in_n C fl h f rt z l a hh x r : nd (plug C (Br l a hh x r)) -> linked h None (plug C (Br l a hh x r)) ->
  next_within InOrder fl (Some a) (TSt h f rt z) = if inc C r <=? fl then Ok (next_pos C r, TSt h f rt z) else Diverge.
Proof.
  intros Hn H. pose proof (linked_unplug _ _ _ H) as (Ha & Hl & Hr).
  unfold next_within, next_pos, inc. cbn [is_null]. erewrite bind_ok by hacc. cbn [n_right]. destruct (lf_dec r) as [->|Hnr].
  - cbn [rootp is_null negb minA]. apply (up_in_n C _ h f rt z (Br l a hh x Lf)); [discriminate|exact Hn|exact H].
  - destruct (minA_some r Hnr) as (b & y & Hm). rewrite Hm. destruct r as [|r1 c hc w r2]; [congruence|].
    cbn [rootp is_null negb]. eapply (down_left_n (Br r1 c hc w r2)); eauto.
Qed.
Lemma next_pre_n C fl h f rt z l a hh x r : nd (plug C (Br l a hh x r)) -> linked h None (plug C (Br l a hh x r)) ->
  next_within PreOrder fl (Some a) (TSt h f rt z) = if prec C l r <=? fl then Ok (nextp C l r, TSt h f rt z) else Diverge.
Proof.
  intros Hn H. pose proof (linked_unplug _ _ _ H) as (Ha & Hl & Hr).
  unfold next_within, nextp, prec. cbn [is_null]. erewrite bind_ok by hacc. cbn [n_left].
  destruct l as [|l1 b hb y l2]; cbn [rootp is_null negb]; [|reflexivity]. erewrite bind_ok by hacc. cbn [n_right].
  destruct r as [|r1 c hc w r2]; cbn [rootp is_null negb]; [|reflexivity].
  apply (up_pre_n C fl h f rt z (Br Lf a hh x Lf)); [discriminate|exact Hn|exact H].
Qed.

(** Limits that are all large enough. *)
Fixpoint fits (ds fs : list nat) : bool :=
  match ds, fs with [], [] => true | d :: ds, f :: fs => (d <=? f) && fits ds fs | _, _ => false end.
Lemma fits_iff ds : forall fs, fits ds fs = true <-> Forall2 le ds fs.
Proof.
  induction ds as [|d ds IH]; intros [|f fs]; cbn [fits]; split; intros H; try discriminate; try constructor; try (inversion H; fail).
  - apply andb_true_iff in H as [H _]. apply Nat.leb_le, H.
  - apply IH. apply andb_true_iff in H as [_ H]. exact H.
  - inversion H; subst. apply andb_true_iff. split; [apply Nat.leb_le; assumption|apply IH; assumption].
Qed.
Lemma fits_app d1 : forall d2 f1 f2, length d1 = length f1 -> fits (d1 ++ d2) (f1 ++ f2) = fits d1 f1 && fits d2 f2.
Proof. induction d1 as [|d d1 IH]; intros d2 [|f f1] f2 E; try discriminate; cbn [fits app]; [reflexivity|]. rewrite IH by (cbn in E; lia). apply andb_assoc. Qed.
Lemma split_at {X} n m (fs : list X) : length fs = n + m -> exists f1 f2, fs = f1 ++ f2 /\ length f1 = n /\ length f2 = m.
Proof. intros E. exists (take n fs), (drop n fs). rewrite take_drop, take_length, drop_length. split; [reflexivity|lia]. Qed.

Lemma next_pos_FL C l a hh x r : next_pos (FL a hh x r :: C) l = next_pos C (Br l a hh x r).
Proof.
  unfold next_pos. destruct (lf_dec l) as [->|Hl]; [reflexivity|]. rewrite minA_Br by exact Hl.
  destruct (minA_some l Hl) as (b & y & ->). reflexivity.
Qed.
Lemma lsp_depth t : (Z.of_nat (lsp t) <= depth t)%Z.
Proof. induction t as [|l IHl a hh v r IHr]; cbn [lsp depth]; lia. Qed.
Lemma ups_len C : ups C <= S (length C).
Proof. induction C as [|[] C IH]; cbn [ups length]; lia. Qed.
Lemma uppn_len C : uppn C <= S (length C).
Proof. induction C as [|[? ? ? []|] C IH]; cbn [uppn length]; lia. Qed.
Lemma depth_plug C : forall t, (Z.of_nat (length C) + depth t <= depth (plug C t))%Z.
Proof.
  induction C as [|F C IH]; intros t; cbn [plug length]; [lia|]. specialize (IH (fill1 F t)).
  destruct F; cbn [fill1 depth] in *; lia.
Qed.

Definition exin C t : nat := match t with Lf => 0 | _ => 2 * nodes t - 1 + ups C end.
Lemma walk_in t : forall C h f rt z, nd (plug C t) -> linked h None (plug C t) -> exists ds,
  length ds = nodes t /\ lsp t + list_sum ds = exin C t /\ Forall (fun d => (Z.of_nat d <= depth (plug C t))%Z) ds /\
  forall fs gs, length fs = nodes t ->
    walk InOrder (fs ++ gs) (next_pos C t) (TSt h f rt z) =
    if fits ds fs then (ys <- walk InOrder gs (upres C) ;; ret (elems t ++ ys)) (TSt h f rt z) else Diverge.
Proof.
  induction t as [|l IHl a hh x r IHr]; intros C h f rt z Hn H.
  - exists []. split; [reflexivity|]. split; [reflexivity|]. split; [constructor|]. intros [|] gs E; [|discriminate].
    cbn [app fits elems]. change (next_pos C Lf) with (upres C). unfold bind, ret. destruct (walk InOrder gs (upres C) (TSt h f rt z)) as [[ys s]| | |]; reflexivity.
  - destruct (IHl (FL a hh x r :: C) h f rt z Hn H) as (dl & Ll & Sl & Bl & Wl).
    destruct (IHr (FR l a hh x :: C) h f rt z Hn H) as (dr & Lr & Sr & Br' & Wr).
    cbn [plug fill1] in Bl, Br'. exists (dl ++ inc C r :: dr). split_and!.
    + rewrite app_length. cbn [length nodes]. lia.
    + rewrite list_sum_app. change (list_sum (inc C r :: dr)) with (inc C r + list_sum dr). cbn [nodes lsp]. unfold exin, inc in *. cbn [ups] in *.
      destruct l, r; cbn [nodes lsp] in *; lia.
    + apply Forall_app. split; [exact Bl|]. constructor; [|exact Br']. unfold inc. pose proof (depth_plug C (Br l a hh x r)) as Hd. cbn [depth] in Hd.
      pose proof (depth_nonneg l). pose proof (depth_nonneg r). destruct r as [|r1 c hc w r2].
      * pose proof (ups_len C). lia.
      * pose proof (lsp_depth (Br r1 c hc w r2)). lia.
    + intros fs gs E. cbn [nodes] in E. destruct (split_at (nodes l) (S (nodes r)) fs ltac:(lia)) as (fl & [|g fr] & -> & El & Er); [discriminate|]. cbn in Er. injection Er as Er.
      rewrite fits_app by lia. cbn [fits]. rewrite <- app_assoc. cbn [app]. rewrite <- next_pos_FL, Wl by exact El.
      destruct (fits dl fl); cbn [andb]; [|reflexivity]. cbn [upres]. cbn [walk is_null].
      pose proof (linked_unplug _ _ _ H) as (Ha & _). rewrite bind_assoc. erewrite bind_ok by hacc. cbn [n_val].
      rewrite bind_assoc. pose proof (next_in_n C g h f rt z l a hh x r Hn H) as En. destruct (inc C r <=? g); cbn [andb].
      2:{ apply bind_diverge, En. }
      rewrite (bind_ok _ _ _ _ _ En), bind_assoc. specialize (Wr fr gs Er). change (next_pos (FR l a hh x :: C) r) with (next_pos C r) in Wr. cbn [upres] in Wr.
      destruct (fits dr fr); [|apply bind_diverge, Wr].
      unfold bind in Wr |- *. rewrite Wr. destruct (walk InOrder gs (upres C) (TSt h f rt z)) as [[ys s]| | |]; try reflexivity.
      unfold ret. cbn [elems]. rewrite <- app_assoc. reflexivity.
Qed.
Definition startp C t : option nat := match rootp t with Some b => Some b | None => upp C end.
Definition expre C t : nat := match t with Lf => 0 | _ => nodes t - 1 + uppn C end.
Lemma walk_pre t : forall C h f rt z, nd (plug C t) -> linked h None (plug C t) -> exists ds,
  length ds = nodes t /\ list_sum ds = expre C t /\ Forall (fun d => (Z.of_nat d <= depth (plug C t))%Z) ds /\
  forall fs gs, length fs = nodes t ->
    walk PreOrder (fs ++ gs) (startp C t) (TSt h f rt z) =
    if fits ds fs then (ys <- walk PreOrder gs (upp C) ;; ret (pre t ++ ys)) (TSt h f rt z) else Diverge.
Proof.
  induction t as [|l IHl a hh x r IHr]; intros C h f rt z Hn H.
  - exists []. split; [reflexivity|]. split; [reflexivity|]. split; [constructor|]. intros [|] gs E; [|discriminate].
    cbn [app fits pre]. change (startp C Lf) with (upp C). unfold bind, ret. destruct (walk PreOrder gs (upp C) (TSt h f rt z)) as [[ys s]| | |]; reflexivity.
  - destruct (IHl (FL a hh x r :: C) h f rt z Hn H) as (dl & Ll & Sl & Bl & Wl).
    destruct (IHr (FR l a hh x :: C) h f rt z Hn H) as (dr & Lr & Sr & Br' & Wr).
    cbn [plug fill1] in Bl, Br'. exists (prec C l r :: dl ++ dr). split_and!.
    + cbn [length nodes]. rewrite app_length. lia.
    + change (list_sum (prec C l r :: dl ++ dr)) with (prec C l r + list_sum (dl ++ dr)). rewrite list_sum_app. cbn [nodes]. unfold expre, prec in *. cbn [uppn] in *.
      destruct l, r; cbn [nodes] in *; lia.
    + constructor; [|apply Forall_app; split; [exact Bl|exact Br']]. unfold prec. pose proof (depth_plug C (Br l a hh x r)) as Hd. cbn [depth] in Hd.
      pose proof (depth_nonneg l). pose proof (depth_nonneg r). pose proof (uppn_len C). destruct l, r; lia.
    + intros fs gs E. cbn [nodes] in E. destruct fs as [|g fs]; [cbn in E; lia|]. cbn [length] in E. destruct (split_at (nodes l) (nodes r) fs ltac:(lia)) as (fl & fr & -> & El & Er).
      cbn [fits]. rewrite fits_app by lia. cbn [app]. rewrite <- app_assoc. cbn [startp rootp walk is_null].
      pose proof (linked_unplug _ _ _ H) as (Ha & _). erewrite bind_ok by hacc. cbn [n_val].
      pose proof (next_pre_n C g h f rt z l a hh x r Hn H) as En. destruct (prec C l r <=? g); cbn [andb].
      2:{ apply bind_diverge, En. }
      rewrite (bind_ok _ _ _ _ _ En). change (nextp C l r) with (startp (FL a hh x r :: C) l).
      specialize (Wl fl (fr ++ gs) El). destruct (fits dl fl); cbn [andb]; [|apply bind_diverge, Wl].
      unfold bind at 1. rewrite Wl. change (upp (FL a hh x r :: C)) with (startp (FR l a hh x :: C) r). specialize (Wr fr gs Er).
      unfold bind at 1. rewrite Wr. destruct (fits dr fr); [|reflexivity]. cbn [upp].
      unfold bind. destruct (walk PreOrder gs (upp C) (TSt h f rt z)) as [[ys s]| | |]; try reflexivity.
      unfold ret. cbn [pre app]. rewrite <- app_assoc. reflexivity.
Qed.

Lemma length_pre (t : atree A) : length (pre t) = length (elems t).
Proof. induction t as [|l IHl a hh x r IHr]; cbn [pre elems length]; [reflexivity|]. rewrite !app_length. cbn [length]. lia. Qed.
(** Fewer limits than elements. *)
Lemma walk_short o fs : forall p (s : tst A), walk o fs p s = Diverge \/
  (forall gs, walk o (fs ++ gs) p s = walk o fs p s) /\ forall xs s', walk o fs p s = Ok (xs, s') -> length xs <= length fs.
Proof.
  induction fs as [|f fs IH]; intros p s.
  - cbn [walk app]. destruct (is_null p) eqn:E; [right|left; reflexivity]. split.
    + intros [|g gs]; cbn [walk]; rewrite E; reflexivity.
    + intros xs s' H. unfold ret in H. injection H as <- <-. cbn. lia.
  - cbn [walk app]. destruct (is_null p) eqn:E.
    { right. split; [reflexivity|]. intros xs s' H. unfold ret in H. injection H as <- <-. cbn. lia. }
    unfold bind. destruct (ld_val p s) as [[x s1]| | |]; [|right; split; [reflexivity|discriminate]|right; split; [reflexivity|discriminate]|left; reflexivity].
    destruct (next_within o f p s1) as [[q s2]| | |]; [|right; split; [reflexivity|discriminate]|right; split; [reflexivity|discriminate]|left; reflexivity].
    destruct (IH q s2) as [->|[H1 H2]]; [left; reflexivity|right]. split.
    + intros gs. rewrite H1. reflexivity.
    + intros xs s' H. destruct (walk o fs q s2) as [[ys s3]| | |] eqn:Ew; try discriminate. unfold ret in H. injection H as <- <-.
      specialize (H2 _ _ eq_refl). cbn [length]. lia.
Qed.
Lemma walk_short_div o fs n (l : list A) p (s s' : tst A) : length fs < n -> length l = n ->
  (forall gs, length gs = n -> walk o gs p s = Ok (l, s') \/ walk o gs p s = Diverge) -> walk o fs p s = Diverge.
Proof.
  intros Hs Hl H. destruct (walk_short o fs p s) as [|[H1 H2]]; [assumption|].
  destruct (H (fs ++ replicate (n - length fs) 0)) as [E|E]; [rewrite app_length, replicate_length; lia| |]; rewrite H1 in E; [|exact E].
  specialize (H2 _ _ E). lia.
Qed.
Lemma fits_short ds fs : length fs < length ds -> fits ds fs = false.
Proof. intros H. destruct (fits ds fs) eqn:E; [|reflexivity]. apply fits_iff, Forall2_length in E. lia. Qed.

(** Whole iterations. *)
Theorem inorder_rounds t h f z : t <> Lf -> nd t -> linked h None t -> exists d0 ds,
  d0 + list_sum ds = 2 * length (elems t) /\ length ds = length (elems t) /\ Forall (fun d => (Z.of_nat d <= depth t)%Z) (d0 :: ds) /\
  forall f0 fs,
    (Forall2 le (d0 :: ds) (f0 :: firstn (length (elems t)) fs) -> walk_all InOrder f0 fs (TSt h f (rootp t) z) = Ok (elems t, TSt h f (rootp t) z)) /\
    (~ Forall2 le (d0 :: ds) (f0 :: firstn (length (elems t)) fs) -> walk_all InOrder f0 fs (TSt h f (rootp t) z) = Diverge).
Proof.
  intros Ht Hn H. destruct (walk_in t [] h f (rootp t) z Hn H) as (ds & L & S & B & W). rewrite length_elems.
  exists (lsp t), ds. split_and!.
  - unfold exin in S. cbn [ups] in S. destruct t; [congruence|]. cbn [nodes] in *. lia.
  - exact L.
  - constructor; [apply lsp_depth|exact B].
  - intros f0 fs. rewrite <- fits_iff. cbn [fits].
    assert (walk_all InOrder f0 fs (TSt h f (rootp t) z) = if (lsp t <=? f0) && fits ds (firstn (nodes t) fs) then Ok (elems t, TSt h f (rootp t) z) else Diverge) as ->.
    { unfold walk_all. erewrite bind_ok by reflexivity. cbn [t_root]. destruct (minA_some t Ht) as (b & y & Hm).
      pose proof (down_left_n t f0 h f (rootp t) z None b y Ht H Hm) as Ed. unfold first_within. destruct (lsp t <=? f0); cbn [andb]; [|apply bind_diverge, Ed].
      rewrite (bind_ok _ _ _ _ _ Ed). unfold next_pos in W. rewrite Hm in W.
      assert (forall gs hs, length gs = nodes t -> walk InOrder (gs ++ hs) (Some b) (TSt h f (rootp t) z) = if fits ds gs then Ok (elems t, TSt h f (rootp t) z) else Diverge) as W'.
      { intros gs hs E. rewrite (W gs hs E). destruct (fits ds gs); [|reflexivity]. cbn [upres]. destruct hs; cbn [walk is_null]; unfold bind, ret; rewrite app_nil_r; reflexivity. }
      destruct (le_lt_dec (nodes t) (length fs)) as [E|E].
      - rewrite <- (firstn_skipn (nodes t) fs) at 1. apply W'. rewrite firstn_length. lia.
      - rewrite fits_short by (rewrite firstn_length; lia). apply (walk_short_div _ _ (nodes t) (elems t) _ _ (TSt h f (rootp t) z) E (length_elems t)).
        intros gs Eg. specialize (W' gs [] Eg). rewrite app_nil_r in W'. rewrite W'. destruct (fits ds gs); auto. }
    destruct ((lsp t <=? f0) && fits ds (firstn (nodes t) fs)); split; intros HH; congruence.
Qed.
Theorem preorder_rounds t h f z : nd t -> linked h None t -> exists ds,
  list_sum ds = length (elems t) /\ length ds = length (elems t) /\ Forall (fun d => (Z.of_nat d <= depth t)%Z) ds /\
  forall f0 fs,
    (Forall2 le ds (firstn (length (elems t)) fs) -> walk_all PreOrder f0 fs (TSt h f (rootp t) z) = Ok (pre t, TSt h f (rootp t) z)) /\
    (~ Forall2 le ds (firstn (length (elems t)) fs) -> walk_all PreOrder f0 fs (TSt h f (rootp t) z) = Diverge).
Proof.
  intros Hn H. destruct (walk_pre t [] h f (rootp t) z Hn H) as (ds & L & S & B & W). rewrite length_elems.
  exists ds. split_and!.
  - unfold expre in S. cbn [uppn] in S. destruct t; cbn [nodes] in *; lia.
  - exact L.
  - exact B.
  - intros f0 fs. rewrite <- fits_iff.
    assert (walk_all PreOrder f0 fs (TSt h f (rootp t) z) = if fits ds (firstn (nodes t) fs) then Ok (pre t, TSt h f (rootp t) z) else Diverge) as ->.
    { unfold walk_all. erewrite bind_ok by reflexivity. cbn [t_root first_within]. erewrite bind_ok by reflexivity.
      assert (forall gs hs, length gs = nodes t -> walk PreOrder (gs ++ hs) (rootp t) (TSt h f (rootp t) z) = if fits ds gs then Ok (pre t, TSt h f (rootp t) z) else Diverge) as W'.
      { intros gs hs E. specialize (W gs hs E). unfold startp in W. cbn [upp] in W.
        destruct (rootp t) eqn:Er; rewrite W; (destruct (fits ds gs); [|reflexivity]); (destruct hs; cbn [walk is_null]; unfold bind, ret; rewrite app_nil_r; reflexivity). }
      destruct (le_lt_dec (nodes t) (length fs)) as [E|E].
      - rewrite <- (firstn_skipn (nodes t) fs) at 1. apply W'. rewrite firstn_length. lia.
      - rewrite fits_short by (rewrite firstn_length; lia). apply (walk_short_div _ _ (nodes t) (pre t) _ _ (TSt h f (rootp t) z) E).
        + rewrite <- length_elems. apply length_pre.
        + intros gs Eg. specialize (W' gs [] Eg). rewrite app_nil_r in W'. rewrite W'. destruct (fits ds gs); auto. }
    destruct (fits ds (firstn (nodes t) fs)); split; intros HH; congruence.
Qed.
End Walks.
