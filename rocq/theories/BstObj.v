(** The operations of one BinarySearchTree object. *)
From Coq Require Import Sorted.
From Verif Require Import Base Alloc AllocProofs TreeAlloc TreeModel TreeSpec TreeBase TreeSets TreeZip TreeDel TreeErase TreeIter TreeObj TreeWorld BstWorld BstSpec.
Open Scope Z_scope.

Section Obj.
Context {A : Type} (cmp : A -> A -> bool) (Hc : swo cmp).
Notation tree := (atree A).
Implicit Types (h : gmap nat (node A)) (t l r : tree) (x : A) (C : list (frame A)) (F : frame A).
Notation asc := (ascending cmp).

Fixpoint shape t : bt A := match t with Lf => BE | Br l _ _ x r => BN (shape l) x (shape r) end.
Lemma inorder_shape t : inorder (shape t) = elems t.
Proof. induction t as [|l IHl a hh x r IHr]; cbn; congruence. Qed.
Lemma preorder_shape t : preorder (shape t) = pre t.
Proof. induction t as [|l IHl a hh x r IHr]; cbn; congruence. Qed.

(** A stored search tree. *)
Record bwf h (f : alloc) t : Prop := Bwf {
  bwf_linked : linked h None t;
  bwf_nd : nd t;
  bwf_asc : asc (elems t);
  bwf_al : alok h f }.
Record bgoes h (f : alloc) t h' (f' : alloc) t' : Prop := Bgoes {
  bgo_wf : bwf h' f' t';
  bgo_pol : al_pol f' = al_pol f;
  bgo_out : forall k, cnt k t' = 0%nat -> h' !! k = if decide (cnt k t = 0%nat) then h !! k else None;
  bgo_in : forall k, (0 < cnt k t')%nat -> (0 < cnt k t)%nat \/ h !! k = None }.
Lemma bwf_some h f t k : bwf h f t -> (0 < cnt k t)%nat -> is_Some (h !! k).
Proof. intros W Hk. exact (linked_in _ _ _ _ (bwf_linked _ _ _ W) Hk). Qed.
Lemma bgoes_refl h f t : bwf h f t -> bgoes h f t h f t.
Proof. intros W. split; auto. intros k Hk. destruct (decide _); [reflexivity|contradiction]. Qed.

(** ** push *)
Fixpoint insB x (f : nat) t : tree :=
  match t with
  | Lf => Br Lf f 0 x Lf
  | Br l a hh v r => if cmp x v then Br (insB x f l) a hh v r else Br l a hh v (insB x f r)
  end.
Lemma shape_ins x f t : shape (insB x f t) = bins cmp x (shape t).
Proof. induction t as [|l IHl a hh v r IHr]; cbn [insB shape bins]; [reflexivity|]. destruct (cmp x v); cbn [shape]; congruence. Qed.
Lemma cnt_insB k x f t : cnt k (insB x f t) = (cnt k t + one k f)%nat.
Proof. induction t as [|l IHl a hh v r IHr]; cbn [insB cnt]; [lia|]. destruct (cmp x v); cbn [cnt]; rewrite ?IHl, ?IHr; lia. Qed.
Lemma elems_insB x f t : asc (elems t) -> lookup_set cmp x (elems t) = None -> elems (insB x f t) = add_set cmp x (elems t).
Proof.
  induction t as [|l IHl a hh v r IHr]; cbn [insB elems]; [reflexivity|].
  intros Ha Hx. pose proof (proj1 (asc_mid cmp Hc _ _ _) Ha) as (Hal & Har & _ & _).
  destruct (c_cases cmp Hc x v) as [[E E']|[[E E']|E]].
  - rewrite E. rewrite (lookup_lt cmp Hc _ _ _ Ha _ E) in Hx. rewrite (add_lt cmp _ _ _ _ E). cbn [elems]. rewrite IHl by auto. reflexivity.
  - rewrite E. rewrite (lookup_gt cmp Hc _ _ _ Ha _ E') in Hx. rewrite (add_gt cmp Hc _ _ _ Ha _ E'). cbn [elems]. rewrite IHr by auto. reflexivity.
  - rewrite (lookup_eq cmp Hc _ _ _ Ha _ E) in Hx. discriminate.
Qed.

(** The descent: where the new node goes. *)
Fixpoint path x t C : list (frame A) :=
  match t with
  | Lf => C
  | Br l a hh v r => if cmp x v then path x l (FL a hh v r :: C) else path x r (FR l a hh v :: C)
  end.
Lemma path_app x t : forall C, path x t C = path x t [] ++ C.
Proof.
  induction t as [|l IHl a hh v r IHr]; intros C; cbn [path]; [reflexivity|].
  destruct (cmp x v); [rewrite IHl, (IHl [_])|rewrite IHr, (IHr [_])]; rewrite <- app_assoc; reflexivity.
Qed.
Lemma plug_path x t : forall C, plug (path x t C) Lf = plug C t.
Proof. induction t as [|l IHl a hh v r IHr]; intros C; cbn [path]; [reflexivity|]. destruct (cmp x v); [rewrite IHl|rewrite IHr]; reflexivity. Qed.
Lemma plug_path_ins x f t : forall C, plug (path x t C) (Br Lf f 0 x Lf) = plug C (insB x f t).
Proof. induction t as [|l IHl a hh v r IHr]; intros C; cbn [path insB]; [reflexivity|]. destruct (cmp x v); [rewrite IHl|rewrite IHr]; reflexivity. Qed.
Lemma path_dir x t : forall C, (match C with FL _ _ v _ :: _ => cmp x v = true | FR _ _ _ v :: _ => cmp x v = false | [] => True end) ->
  match path x t C with FL _ _ v _ :: _ => cmp x v = true | FR _ _ _ v :: _ => cmp x v = false | [] => True end.
Proof.
  induction t as [|l IHl a hh v r IHr]; intros C HC; cbn [path]; [exact HC|]. destruct (cmp x v) eqn:E; [apply IHl|apply IHr]; exact E.
Qed.
Lemma descend_ok x t : forall fl h f rt z par C, linked h par t -> (nodes t < fl)%nat -> par = hpar None C ->
  bst_descend cmp fl (rootp t) par x (TSt h f rt z) =
  Ok (match atF cmp x t with Some a => inl (Some a) | None => inr (hpar None (path x t C)) end, TSt h f rt z).
Proof.
  induction t as [|l IHl a hh v r IHr]; intros fl h f rt z par C H Hfl Hp; (destruct fl as [|fl]; [lia|]); cbn [bst_descend rootp is_null atF path].
  - rewrite Hp. reflexivity.
  - destruct H as (Ha & Hl & Hr). cbn [nodes] in Hfl. erewrite bind_ok by hacc. cbn [n_val].
    destruct (cmp x v); [hgo; rewrite (IHl _ _ _ _ _ _ (FL a hh v r :: C) Hl) by (reflexivity || lia); reflexivity|].
    destruct (cmp v x); [hgo; rewrite (IHr _ _ _ _ _ _ (FR l a hh v :: C) Hr) by (reflexivity || lia); reflexivity|]. reflexivity.
Qed.
(** A present key: only the size changes. *)
Lemma push_dup h f z t x a : nd t -> linked h None t -> atF cmp x t = Some a ->
  bst_push cmp x (TSt h f (rootp t) z) = Ok (tt, TSt h f (rootp t) (z + 1)).
Proof.
  intros Hn Hl Ha. unfold bst_push, bst_insert. rewrite !bind_assoc. erewrite bind_ok by reflexivity. rewrite !bind_assoc.
  erewrite bind_ok by reflexivity. cbn [t_heap t_root]. rewrite !bind_assoc.
  rewrite (bind_ok _ _ _ _ _ (descend_ok x t (S (S (size h))) h f (rootp t) z None [] Hl ltac:(pose proof (nodes_size _ _ _ Hn Hl); lia) eq_refl)).
  rewrite Ha. rewrite bind_ret. erewrite bind_ok by reflexivity. cbn [t_root].
  assert (is_null (rootp t) = false) as -> by (destruct t; [discriminate|reflexivity]).
  cbn [when]. reflexivity.
Qed.
Lemma push_any h al f z t x : linked h None t -> nd t -> alok h al -> atF cmp x t = None -> al_pick al = Some f -> exists h',
  bst_push cmp x (TSt h al (rootp t) z) = Ok (tt, TSt h' (al_got f al) (rootp (insB x f t)) (z + 1)) /\
  linked h' None (insB x f t) /\ nd (insB x f t) /\ alok h' (al_got f al) /\ forall k, cnt k t = 0%nat -> k <> f -> h' !! k = h !! k.
Proof.
  intros Hl Hn Hf Hat Hpk.
  pose proof (alok_new _ _ _ Hf Hpk) as Hfn.
  assert (cnt f t = 0%nat) as Hft. { destruct (cnt f t) eqn:E0; [reflexivity|]. destruct (linked_in _ _ _ f Hl ltac:(lia)) as [? E1]. congruence. }
  set (C := path x t []). pose proof (plug_path x t []) as Ep. cbn [plug] in Ep. fold C in Ep.
  pose proof (plug_path_ins x f t []) as Ei. cbn [plug] in Ei. fold C in Ei.
  assert (forall h', linked h' None (insB x f t) -> (forall k, cnt k t = 0%nat -> k <> f -> h' !! k = h !! k) ->
    linked h' None (insB x f t) /\ nd (insB x f t) /\ alok h' (al_got f al) /\ forall k, cnt k t = 0%nat -> k <> f -> h' !! k = h !! k) as HG.
  { intros h' H' Fr. split_and!; [exact H'| | |exact Fr].
    - intros k. rewrite cnt_insB. specialize (Hn k). destruct (decide (k = f)) as [->|Hk]; [rewrite one_eq; lia|rewrite one_ne by congruence; lia].
    - apply (alok_got h al f h' Hf Hpk). intros k. destruct (decide (k = f)) as [->|Hkf].
      + split; [auto|intros _]. apply (linked_in _ _ _ _ H'). rewrite cnt_insB, one_eq. lia.
      + destruct (cnt k t) eqn:E0; [rewrite Fr by assumption; tauto|].
        split; intros _; [right; apply (linked_in _ _ _ k Hl); lia|]. apply (linked_in _ _ _ _ H'). rewrite cnt_insB. lia. }
  assert (forall k, (cntC k C + cnt k (@Lf A) <= 1)%nat) as HnC by (apply nd_plug; rewrite Ep; exact Hn).
  pose proof Hl as HlC. rewrite <- Ep in HlC. apply linked_plug in HlC as [HC _]. cbn [rootp] in HC.
  unfold bst_push, bst_insert. rewrite !bind_assoc. erewrite bind_ok by reflexivity. rewrite !bind_assoc.
  erewrite bind_ok by reflexivity. cbn [t_heap t_root]. rewrite !bind_assoc.
  rewrite (bind_ok _ _ _ _ _ (descend_ok x t (S (S (size h))) h al (rootp t) z None [] Hl ltac:(pose proof (nodes_size _ _ _ Hn Hl); lia) eq_refl)).
  rewrite Hat. fold C. rewrite !bind_assoc. erewrite bind_ok by (unfold new_node; cbn [t_al t_heap]; rewrite Hpk; reflexivity). cbn [t_heap t_al t_root t_size].
  pose proof (path_dir x t [] I) as Hdir. fold C in Hdir.
  set (nn := Nd None None None 0 x).
  assert (cntC f C = 0%nat) as HfC. { pose proof (cnt_plug f C Lf) as E. rewrite Ep in E. cbn [cnt] in E. lia. }
  destruct C as [|F C'] eqn:EC; cbn [hpar is_null negb when].
  - cbn [plug] in Ep, Ei. subst t. cbn [rootp]. rewrite bind_assoc, !bind_ret. erewrite bind_ok by reflexivity. cbn [t_root is_null when].
    cbn [insB]. eexists. split.
    + unfold update_root. rewrite !bind_assoc. erewrite bind_ok by reflexivity. cbn [is_null negb when t_heap t_al t_size].
      erewrite bind_ok by hacc. cbn [n_left n_right n_h n_val]. reflexivity.
    + apply HG.
      * cbn [insB linked]. split_and!; [apply lookup_insert|exact I|exact I].
      * intros k _ Hk. cbn [t_heap]. rewrite !lookup_insert_ne by congruence. reflexivity.
  - assert (is_null (rootp t) = false) as Hnr.
    { rewrite <- Ep, rootp_plug, last_cons. destruct (last C'); reflexivity. }
    assert (rootp (insB x f t) = rootp t) as Er by (rewrite <- Ei, <- Ep; apply rootp_plug_ne; discriminate).
    cbn [linkedC cntC] in *. destruct HC as [HF HC]. pose proof (fa_cnt F) as Hfa.
    assert (fa F <> f) as Hne by (intros E; rewrite E in Hfa; lia).
    assert (exists h', (st_par (Some f) (Some (fa F));;;
       v <- ld_val (Some (fa F));;
       sub <- (if cmp x v then sub <- ld_left (Some (fa F));; st_left (Some (fa F)) (Some f);;; st_left (Some f) sub;;; ret sub
               else sub <- ld_right (Some (fa F));; st_right (Some (fa F)) (Some f);;; st_right (Some f) sub;;; ret sub);;
       when (negb (is_null sub)) (st_par sub (Some f))) (TSt (<[f:=nn]> h) (al_got f al) (rootp t) z) = Ok (tt, TSt h' (al_got f al) (rootp t) z) /\
       flinked h' (hpar None C') F (Some f) /\ h' !! f = Some (Nd (Some (fa F)) None None 0 x) /\
       (forall k, k <> f -> k <> fa F -> h' !! k = h !! k)) as (h' & E & HF' & Hh' & Fr).
    { pose proof (HnC (fa F)) as HnF. destruct F as [a hh v r|l a hh v]; cbn [fa flinked] in *; destruct HF as [Ha Hsub];
        cbn [cntF] in *; rewrite one_eq in HnF.
      - eexists. split; [|split; [split|split]].
        + hgo. rewrite Hdir, !bind_assoc. hgo. rewrite !bind_assoc. hgo. rewrite !bind_assoc. hgo. reflexivity.
        + rewrite lookup_insert_ne by congruence. apply lookup_insert.
        + repeat (apply linked_insert; [lia|]). exact Hsub.
        + apply lookup_insert.
        + intros k Hk1 Hk2. rewrite !lookup_insert_ne by congruence. reflexivity.
      - eexists. split; [|split; [split|split]].
        + hgo. rewrite Hdir, !bind_assoc. hgo. rewrite !bind_assoc. hgo. rewrite !bind_assoc. hgo. reflexivity.
        + rewrite lookup_insert_ne by congruence. apply lookup_insert.
        + repeat (apply linked_insert; [lia|]). exact Hsub.
        + apply lookup_insert.
        + intros k Hk1 Hk2. rewrite !lookup_insert_ne by congruence. reflexivity. }
    rewrite bind_assoc, (bind_ok _ _ _ _ _ E). rewrite bind_ret. erewrite bind_ok by reflexivity. cbn [t_root]. rewrite Hnr. cbn [when].
    exists h'. split; [rewrite Er; reflexivity|]. apply HG.
    + rewrite <- Ei. apply linked_plug. cbn [linkedC rootp hpar linked]. split_and!; [exact HF'| |exact Hh'|exact I|exact I].
      eapply linkedC_same; [|exact HC]. intros k Hk. apply Fr; [intros ->; lia|]. intros ->. specialize (HnC (fa F)). lia.
    + intros k Hk Hkf. apply Fr; [exact Hkf|]. intros ->. rewrite <- Ep, cnt_plug in Hk. cbn [cntC] in Hk. lia.
Qed.
Lemma push_new h al f z t x : bwf h al t -> lookup_set cmp x (elems t) = None -> al_pick al = Some f -> exists h',
  bst_push cmp x (TSt h al (rootp t) z) = Ok (tt, TSt h' (al_got f al) (rootp (insB x f t)) (z + 1)) /\ bgoes h al t h' (al_got f al) (insB x f t).
Proof.
  intros W Hx Hpk. pose proof W as [Hl Hn Hs Hf].
  pose proof (atF_some cmp Hc x t Hs) as Hat. rewrite Hx in Hat.
  pose proof (alok_new _ _ _ Hf Hpk) as Hfn.
  destruct (push_any h al f z t x Hl Hn Hf Hat Hpk) as (h' & E & Hl' & Hn' & Hf' & Fr). exists h'. split; [exact E|].
  split; [split|reflexivity| |].
  - exact Hl'.
  - exact Hn'.
  - rewrite elems_insB by assumption. apply add_asc; assumption.
  - exact Hf'.
  - intros k Hk. rewrite cnt_insB in Hk. destruct (decide (k = f)) as [->|Hkf]; [rewrite one_eq in Hk; lia|].
    rewrite Fr by (lia || exact Hkf). destruct (decide _); [reflexivity|lia].
  - intros k Hk. rewrite cnt_insB in Hk. destruct (decide (k = f)) as [->|Hkf]; [right; exact Hfn|]. rewrite one_ne in Hk by congruence. left. lia.
Qed.
(** No memory for the node: a crash. *)
Lemma push_refused h al z t x : bwf h al t -> lookup_set cmp x (elems t) = None -> al_pick al = None -> bst_push cmp x (TSt h al (rootp t) z) = Abort.
Proof.
  intros W Hx Hpk. pose proof W as [Hl Hn Hs Hf]. pose proof (atF_some cmp Hc x t Hs) as Hat. rewrite Hx in Hat.
  unfold bst_push, bst_insert. rewrite !bind_assoc. erewrite bind_ok by reflexivity. rewrite !bind_assoc.
  erewrite bind_ok by reflexivity. cbn [t_heap t_root]. rewrite !bind_assoc.
  rewrite (bind_ok _ _ _ _ _ (descend_ok x t (S (S (size h))) h al (rootp t) z None [] Hl ltac:(pose proof (nodes_size _ _ _ Hn Hl); lia) eq_refl)).
  rewrite Hat. rewrite !bind_assoc. apply bind_abort. unfold new_node. cbn [t_al]. rewrite Hpk. reflexivity.
Qed.
End Obj.
