(** What holds, and what goes wrong, after every history over AVLTree objects. *)
From Coq Require Import Sorted.
From Verif Require Import Base Alloc AllocProofs VectorModel VectorSpec VecProg VectorProofs VectorWorld VectorExtra Adapter Hist.
From Verif Require Import TreeModel TreeSpec TreeBase TreeSets TreeRot TreeIns TreeZip TreeSwap TreeDel TreeErase TreeIter TreeObj TreeWorld TreeWSpec TreeHist.
Open Scope Z_scope.

Section R.
Context {A : Type} (cmp : A -> A -> bool) (Hc : swo cmp) (pol : policy) (Hso : sound pol) (Hgr : grants pol).
Notation tree := (atree A).
Implicit Types (h : gmap nat (node A)) (t r : tree) (x y : A) (w : tworld A) (T : gmap nat tree) (l : list A).
Notation run ops := (mrun (t_step cmp) ops (tw_init pol)).
Notation srn ops := (srun (ts_step cmp) ops ∅).

Lemma after ops rs s : srn ops = SVal (rs, s) -> exists w T, run ops = Ok (rs, w) /\ s = elems <$> T /\ RT cmp pol T w.
Proof.
  intros E. pose proof (mrun_agree (t_step cmp) (ts_step cmp) (RW cmp pol) (fun o s w => t_step_ok cmp Hc pol o s w Hgr) ops ∅ (tw_init pol) (RW_init cmp pol Hso)) as P.
  rewrite E in P. destruct P as (w & E' & T & -> & H). eauto.
Qed.
Lemma at_id T id l : (elems <$> T) !! id = Some l -> exists t, T !! id = Some t /\ elems t = l.
Proof. rewrite lookup_fmap. destruct (T !! id) as [t|]; [|discriminate]. intros [= <-]. eauto. Qed.
Lemma not_id T id : (elems <$> T) !! id = None -> T !! id = None.
Proof. rewrite lookup_fmap. destruct (T !! id); [discriminate|reflexivity]. Qed.
Lemma then_ub ops ops2 rs w : run ops = Ok (rs, w) -> mrun (t_step cmp) ops2 w = UB -> run (ops ++ ops2) = UB.
Proof. intros E E2. rewrite (mrun_app _ _ _ _ _ _ E), E2. reflexivity. Qed.
Lemma then_ok ops ops2 rs w rs2 w2 : run ops = Ok (rs, w) -> mrun (t_step cmp) ops2 w = Ok (rs2, w2) -> run (ops ++ ops2) = Ok (rs ++ rs2, w2).
Proof. intros E E2. rewrite (mrun_app _ _ _ _ _ _ E), E2. reflexivity. Qed.
Lemma one_ub o w : t_step cmp o w = UB -> mrun (t_step cmp) [o] w = UB.
Proof. intros E. cbn [mrun]. apply bind_ub, E. Qed.
Lemma one_ok o w e w2 : t_step cmp o w = Ok (e, w2) -> mrun (t_step cmp) [o] w = Ok ([e], w2).
Proof. intros E. cbn [mrun]. rewrite (bind_ok _ _ _ _ _ E). reflexivity. Qed.

(** The shape of the trees. *)
Theorem t_shape ops rs s : srn ops = SVal (rs, s) -> exists w (T : gmap nat tree), run ops = Ok (rs, w) /\ s = elems <$> T /\
  (forall id t, T !! id = Some t ->
     linked (tw_heap w) None t /\ nd t /\ ascending cmp (elems t) /\ heights_ok t /\ balanced t /\
     tw_objs w !! id = Some (rootp t, Z.of_nat (length (elems t))) /\ t_step cmp (THeight id) w = Ok (OZ (depth t), w)) /\
  (forall i j t r k, i <> j -> T !! i = Some t -> T !! j = Some r -> (cnt k t = 0%nat \/ cnt k r = 0%nat)) /\
  (forall k, is_Some (tw_heap w !! k) <-> exists id t, T !! id = Some t /\ cnt k t = 1%nat).
Proof.
  intros E. destruct (after _ _ _ E) as (w & T & Ew & -> & H). exists w, T. split_and!; try assumption; auto.
  - intros id t Ht. pose proof (rt_wf _ _ _ _ H _ _ Ht) as W. destruct (wf_avl _ _ _ _ W) as [Hh Hb].
    split_and!; try (apply W); auto.
    + rewrite (RT_lookup _ _ _ _ _ _ H Ht), nodes_len. reflexivity.
    + cbn [t_step]. erewrite bind_ok; [reflexivity|]. rewrite (on_at _ _ _ _ _ _ _ H Ht), (avl_height_ok _ _ _ _ _ W).
      cbn [t_heap t_al t_root t_size]. rewrite insert_id by (apply (RT_lookup _ _ _ _ _ _ H Ht)). destruct w; reflexivity.
  - intros i j t r k Hij Ht Hr. destruct (cnt k t) eqn:E0; [auto|right]. eapply (rt_apart _ _ _ _ H i j); eauto. lia.
  - intros k. split.
    + intros [n Hn]. destruct (rt_all _ _ _ _ H k n Hn) as (i & t & Ht & Hk). exists i, t. split; [exact Ht|].
      pose proof (wf_nd _ _ _ _ (rt_wf _ _ _ _ H _ _ Ht) k). lia.
    + intros (i & t & Ht & Hk). eapply linked_in; [apply (wf_linked _ _ _ _ (rt_wf _ _ _ _ H _ _ Ht))|]. lia.
Qed.

(** AVL trees hold exponentially many elements. *)
Lemma fib_SS n : fib (S (S n)) = (fib (S n) + fib n)%nat.
Proof. reflexivity. Qed.
Lemma fib_mono n m : (n <= m)%nat -> (fib n <= fib m)%nat.
Proof.
  assert (forall k, fib k <= fib (S k))%nat as Hk. { intros k. destruct k; [cbn; lia|]. rewrite fib_SS. lia. }
  induction 1; [lia|]. specialize (Hk m). lia.
Qed.
Lemma fib_bound t : balanced t -> forall n, Z.of_nat n = depth t -> (fib (n + 2) <= length (elems t) + 1)%nat.
Proof.
  induction t as [|l IHl a hh x r IHr]; intros Hb n Hn; cbn [balanced depth elems] in *.
  - assert (n = 0)%nat as -> by lia. cbn. lia.
  - destruct Hb as (Hb & Hbl & Hbr). rewrite app_length. cbn [length].
    pose proof (depth_nonneg l). pose proof (depth_nonneg r).
    specialize (IHl Hbl (Z.to_nat (depth l)) ltac:(lia)). specialize (IHr Hbr (Z.to_nat (depth r)) ltac:(lia)).
    destruct n as [|n]; [lia|]. replace (S n + 2)%nat with (S (S (n + 1))) by lia. rewrite fib_SS.
    assert ((S (n + 1) <= Z.to_nat (depth l) + 2 /\ n + 1 <= Z.to_nat (depth r) + 2) \/
            (S (n + 1) <= Z.to_nat (depth r) + 2 /\ n + 1 <= Z.to_nat (depth l) + 2))%nat as [[H1 H2]|[H1 H2]] by lia;
      apply fib_mono in H1, H2; lia.
Qed.
Lemma fib_pow n : (2 ^ n <= fib (n + 2) * fib (n + 2))%nat.
Proof.
  enough (2 ^ n <= fib (n + 2) * fib (n + 2) /\ 2 ^ S n <= fib (S n + 2) * fib (S n + 2))%nat by tauto.
  induction n as [|n [IH1 IH2]]; [cbn; lia|]. split; [exact IH2|].
  replace (S (S n) + 2)%nat with (S (S (n + 2))) by lia. rewrite fib_SS.
  replace (S (n + 2))%nat with (S n + 2)%nat by lia.
  assert (fib (n + 2) <= fib (S n + 2))%nat by (apply fib_mono; lia). cbn [Nat.pow] in *. nia.
Qed.
Theorem t_height ops rs s id l : srn ops = SVal (rs, s) -> s !! id = Some l -> exists n w,
  run (ops ++ [THeight id]) = Ok (rs ++ [OZ (Z.of_nat n)], w) /\ (fib (n + 2) <= length l + 1)%nat /\ (2 ^ n <= (length l + 1) * (length l + 1))%nat.
Proof.
  intros E Hl. destruct (t_shape _ _ _ E) as (w & T & Ew & -> & HT & _). destruct (at_id _ _ _ Hl) as (t & Ht & <-).
  destruct (HT id t Ht) as (_ & _ & _ & _ & Hb & _ & Eh). pose proof (depth_nonneg t).
  exists (Z.to_nat (depth t)), w. rewrite Z2Nat.id by lia. split; [exact (then_ok _ _ _ _ _ _ Ew (one_ok _ _ _ _ Eh))|].
  pose proof (fib_bound t Hb (Z.to_nat (depth t)) ltac:(lia)) as Hf. split; [exact Hf|].
  pose proof (fib_pow (Z.to_nat (depth t))). nia.
Qed.

(** Iterating or traversing an empty tree. *)
Lemma empty_lf t : elems t = [] -> t = Lf.
Proof. destruct t as [|l0 a hh v r]; [auto|]. cbn. intros H. destruct (elems l0); discriminate. Qed.
Theorem t_empty_iter ops rs s id : srn ops = SVal (rs, s) -> s !! id = Some [] ->
  run (ops ++ [TIter id]) = UB /\ run (ops ++ [TTraverse id InOrder]) = UB /\ run (ops ++ [TTraverse id PostOrder]) = UB.
Proof.
  intros E Hl. destruct (after _ _ _ E) as (w & T & Ew & -> & H). destruct (at_id _ _ _ Hl) as (t & Ht & He). apply empty_lf in He as ->.
  assert (forall m, m (TSt (tw_heap w) (tw_al w) None 0) = UB -> on id m w = @UB (list A * tworld A)) as Hu.
  { intros m Em. rewrite (on_at _ _ _ _ _ _ _ H Ht). cbn [rootp nodes]. change (Z.of_nat 0) with 0. rewrite Em. reflexivity. }
  split_and!; (eapply then_ub; [exact Ew|]; apply one_ub; cbn [t_step]; apply bind_ub, Hu; reflexivity).
Qed.

(** Popping what is not there. *)
Theorem t_pop_absent ops rs s id l x : srn ops = SVal (rs, s) -> s !! id = Some l -> l <> [] -> lookup_set cmp x l = None ->
  run (ops ++ [TPop id x]) = UB.
Proof.
  intros E Hl Hn Hx. destruct (after _ _ _ E) as (w & T & Ew & -> & H). destruct (at_id _ _ _ Hl) as (t & Ht & <-).
  pose proof (w_pop cmp Hc _ _ _ _ _ x H Ht) as P. rewrite Hx in P. destruct (elems t); [congruence|].
  eapply then_ub; [exact Ew|]. apply one_ub. cbn [t_step]. apply bind_ub, P.
Qed.

(** Uses of a tree object. *)
Definition use (id : nat) (o : top A) : Prop :=
  o = TDestroy id \/ o = TClear id \/ o = THeight id \/ o = TIter id \/ (exists x, o = TFind id x) \/ (exists x, o = TPush id x).
Lemma use_dangling id o w a z : use id o -> tw_objs w !! id = Some (Some a, z) -> tw_heap w !! a = None -> t_step cmp o w = UB.
Proof.
  intros Hu Ho Ha. destruct (dangling_root cmp (tw_heap w) (tw_al w) a z Ha) as (D1 & D2 & D3 & D4 & D5 & D6).
  assert (forall X (m : M (tst A) X), m (TSt (tw_heap w) (tw_al w) (Some a) z) = UB -> on id m w = UB) as HO.
  { intros X m Em. unfold on. rewrite Ho, Em. reflexivity. }
  destruct Hu as [->|[->|[->|[->|[[x ->]|[x ->]]]]]]; cbn [t_step].
  - apply bind_ub. unfold tw_destroy. apply bind_ub, HO, D1.
  - apply bind_ub, HO, D2.
  - apply bind_ub, HO, D3.
  - apply bind_ub, HO, D6.
  - apply bind_ub, HO. apply bind_ub, D4.
  - apply bind_ub, HO, D5.
Qed.
(** Erasing a root that has fewer than two children. *)
Lemma erase_bad T w id t x a o : RT cmp pol T w -> T !! id = Some t -> atF cmp x t = Some a -> root_small t a -> use id o ->
  match next_set cmp x (elems t) with
  | Some _ => t_step cmp (TErase id x) w = UB
  | None => exists w', t_step cmp (TErase id x) w = Ok (OOpt None, w') /\ t_step cmp o w' = UB
  end.
Proof.
  intros H Ht Ha Hs Hu. pose proof (rt_wf _ _ _ _ H _ _ Ht) as W.
  pose proof (erase_root_small cmp Hc _ _ (Z.of_nat (nodes t)) t x a W Ha Hs) as P.
  assert (forall k, (p <- bt_find cmp x ;; q <- avl_erase cmp p ;; k q) (TSt (tw_heap w) (tw_al w) (rootp t) (Z.of_nat (nodes t)))
    = (q <- avl_erase cmp (Some a) ;; k q) (TSt (tw_heap w) (tw_al w) (rootp t) (Z.of_nat (nodes t))) :> res (option A * tst A)) as Hk.
  { intros k. rewrite (bind_ok _ _ _ _ _ (find_ok cmp x t _ _ _ (wf_nd _ _ _ _ W) (wf_linked _ _ _ _ W))), Ha. reflexivity. }
  destruct (next_set cmp x (elems t)).
  - cbn [t_step]. apply bind_ub. rewrite (on_at _ _ _ _ _ _ _ H Ht), Hk. rewrite (bind_ub _ _ _ P). reflexivity.
  - destruct P as (h' & E & Hn). eexists. split.
    + cbn [t_step]. erewrite bind_ok; [reflexivity|]. rewrite (on_at _ _ _ _ _ _ _ H Ht), Hk, (bind_ok _ _ _ _ _ E). reflexivity.
    + eapply use_dangling; [exact Hu| |]; cbn [tw_objs tw_heap t_heap t_root t_size]; [apply lookup_insert|exact Hn].
Qed.
Lemma lookup_at x t h par v : ascending cmp (elems t) -> linked h par t -> lookup_set cmp x (elems t) = Some v -> exists a, atF cmp x t = Some a.
Proof. intros Hs _ E. pose proof (atF_some cmp Hc x t Hs) as P. rewrite E in P. exact P. Qed.
(** The only element. *)
Theorem t_erase_one ops rs s id y x o : srn ops = SVal (rs, s) -> s !! id = Some [y] -> equiv cmp x y -> use id o ->
  run (ops ++ [TErase id x; o]) = UB /\ exists w, run (ops ++ [TErase id x]) = Ok (rs ++ [OOpt None], w).
Proof.
  intros E Hl He Hu. destruct (after _ _ _ E) as (w & T & Ew & -> & H). destruct (at_id _ _ _ Hl) as (t & Ht & Et).
  pose proof (rt_wf _ _ _ _ H _ _ Ht) as W.
  assert (lookup_set cmp x [y] = Some y) as Hx by (apply (lookup_eq cmp Hc [] [] y); [repeat constructor|exact He]).
  rewrite <- Et in Hx. destruct (lookup_at x t _ _ _ (wf_asc _ _ _ _ W) (wf_linked _ _ _ _ W) Hx) as [a Ha].
  assert (root_small t a) as Hs.
  { destruct t as [|l0 b hh v r]; [discriminate|]. cbn [elems] in Et. apply app_eq_unit in Et as [[E1 E2]|[E1 E2]]; [|discriminate].
    injection E2 as -> E2. apply empty_lf in E1 as ->, E2 as ->. cbn [root_small]. split; [|auto].
    cbn [atF] in Ha. destruct He as [He1 He2]. rewrite He1, He2 in Ha. congruence. }
  pose proof (erase_bad _ _ _ _ x a o H Ht Ha Hs Hu) as P.
  assert (next_set cmp x (elems t) = None) as En.
  { rewrite Et. unfold next_set. cbn [List.find]. destruct He as [-> _]. reflexivity. }
  rewrite En in P. destruct P as (w' & E1 & E2). split.
  - eapply then_ub; [exact Ew|]. cbn [mrun]. rewrite (bind_ok _ _ _ _ _ E1). apply bind_ub, bind_ub, E2.
  - exists w'. eapply then_ok; [exact Ew|]. apply one_ok, E1.
Qed.
(** One of two elements. *)
Theorem t_erase_two ops rs s id y z : srn ops = SVal (rs, s) -> s !! id = Some [y; z] ->
  (run (ops ++ [TErase id y]) = UB /\ exists w, run (ops ++ [TErase id z; TIter id]) = Ok (rs ++ [OOpt None; OList [y]], w)) \/
  ((forall o, use id o -> run (ops ++ [TErase id z; o]) = UB) /\ exists w, run (ops ++ [TErase id y; TIter id]) = Ok (rs ++ [OOpt (Some z); OList [z]], w)).
Proof.
  intros E Hl. destruct (after _ _ _ E) as (w & T & Ew & -> & H). destruct (at_id _ _ _ Hl) as (t & Ht & Et).
  pose proof (rt_wf _ _ _ _ H _ _ Ht) as W. pose proof (wf_asc _ _ _ _ W) as Hs. rewrite Et in Hs.
  assert (cmp y z = true) as Hyz by (apply asc_cons in Hs as [_ Hs]; apply Hs; left; reflexivity).
  pose proof (c_asym cmp Hc _ _ Hyz) as Hzy.
  assert (lookup_set cmp y (elems t) = Some y) as Hy by (rewrite Et; apply (lookup_eq cmp Hc [] [z] y Hs), (equiv_refl cmp Hc)).
  assert (lookup_set cmp z (elems t) = Some z) as Hz by (rewrite Et; apply (lookup_eq cmp Hc [y] [] z Hs), (equiv_refl cmp Hc)).
  destruct (lookup_at y t _ _ _ (wf_asc _ _ _ _ W) (wf_linked _ _ _ _ W) Hy) as [a Ha].
  destruct (lookup_at z t _ _ _ (wf_asc _ _ _ _ W) (wf_linked _ _ _ _ W) Hz) as [b Hb].
  assert (next_set cmp y (elems t) = Some z) as Ny by (rewrite Et; apply (next_eq cmp Hc [] [z] y Hs), (equiv_refl cmp Hc)).
  assert (next_set cmp z (elems t) = None) as Nz by (rewrite Et; apply (next_eq cmp Hc [y] [] z Hs), (equiv_refl cmp Hc)).
  assert (remove_set cmp y (elems t) = [z]) as Ry by (rewrite Et; apply (remove_eq cmp Hc [] [z] y Hs), (equiv_refl cmp Hc)).
  assert (remove_set cmp z (elems t) = [y]) as Rz by (rewrite Et; apply (remove_eq cmp Hc [y] [] z Hs), (equiv_refl cmp Hc)).
  assert (forall x c v0, atF cmp x t = Some c -> ~ root_small t c -> remove_set cmp x (elems t) = [v0] ->
    exists w', run (ops ++ [TErase id x; TIter id]) = Ok (rs ++ [OOpt (next_set cmp x (elems t)); OList [v0]], w')) as Hok.
  { intros x c v0 Hx Hr Hrm. destruct (w_erase cmp Hc _ _ _ _ _ x c H Ht Hx Hr) as (w1 & t' & E1 & H1 & Ee). rewrite Hrm in Ee.
    destruct (w_iter _ _ _ _ _ _ H1 (lookup_insert _ _ _)) as (w2 & E2 & _); [intros ->; discriminate|].
    exists w2. eapply then_ok; [exact Ew|]. cbn [mrun]. erewrite bind_ok by (cbn [t_step]; erewrite bind_ok by exact E1; reflexivity).
    erewrite bind_ok; [reflexivity|]. erewrite bind_ok by (cbn [t_step]; erewrite bind_ok by exact E2; reflexivity). rewrite Ee. reflexivity. }
  destruct t as [|l0 c hh v r]; [discriminate|]. cbn [elems] in Et.
  assert ((l0 = Lf /\ v = y) \/ (r = Lf /\ v = z)) as [[-> ->]|[-> ->]].
  { destruct (elems l0) as [|u l1] eqn:E0; cbn in Et; [left; apply empty_lf in E0; split; congruence|].
    injection Et as -> Et. destruct l1 as [|u2 l2]; cbn in Et; [injection Et as -> Et; right; split; [apply empty_lf, Et|reflexivity]|].
    exfalso. injection Et as _ Et. destruct l2; discriminate. }
  - left. cbn [atF] in Ha, Hb. rewrite (c_irr cmp Hc) in Ha. injection Ha as <-. rewrite Hzy, Hyz in Hb.
    split.
    + pose proof (erase_bad _ _ _ _ y c (TIter id) H Ht) as P. cbn [atF] in P. rewrite (c_irr cmp Hc) in P.
      specialize (P eq_refl). rewrite Ny in P. eapply then_ub; [exact Ew|]. apply one_ub, P; [cbn; auto|unfold use; auto].
    + rewrite <- Nz. eapply (Hok z b); [cbn [atF]; rewrite Hzy, Hyz; exact Hb| |exact Rz].
      intros [-> _]. pose proof (wf_nd _ _ _ _ W c) as Hn. cbn [cnt] in Hn. rewrite one_eq in Hn.
      destruct (atF_zip cmp z r c Hb) as (C & l2 & h2 & v2 & r2 & -> & _). pose proof (cnt_plug c C (Br l2 c h2 v2 r2)) as Hp.
      cbn [cnt] in *. rewrite one_eq in *. lia.
  - right. cbn [atF] in Ha, Hb. rewrite (c_irr cmp Hc) in Hb. injection Hb as <-. rewrite Hyz in Ha.
    split.
    + intros o Hu. pose proof (erase_bad _ _ _ _ z c o H Ht) as P. cbn [atF] in P. rewrite (c_irr cmp Hc) in P.
      specialize (P eq_refl). rewrite Nz in P. destruct P as (w' & E1 & E2); [cbn; auto|exact Hu|].
      eapply then_ub; [exact Ew|]. cbn [mrun]. rewrite (bind_ok _ _ _ _ _ E1). apply bind_ub, bind_ub, E2.
    + rewrite <- Ny. eapply (Hok y a); [cbn [atF]; rewrite Hyz; exact Ha| |exact Ry].
      intros [-> _]. pose proof (wf_nd _ _ _ _ W c) as Hn. cbn [cnt] in Hn. rewrite one_eq in Hn.
      destruct (atF_zip cmp y l0 c Ha) as (C & l2 & h2 & v2 & r2 & -> & _). pose proof (cnt_plug c C (Br l2 c h2 v2 r2)) as Hp.
      cbn [cnt] in *. rewrite one_eq in *. lia.
Qed.

(** Copies share the nodes. *)
Lemma copy_bad ops rs s id src l c o : srn ops = SVal (rs, s) -> s !! src = Some l -> l <> [] -> id <> src ->
  ((c = TCopyNew id src /\ s !! id = None) \/ (c = TAssign id src /\ is_Some (s !! id))) ->
  (use id o -> run (ops ++ [c; TDestroy src; o]) = UB) /\ (use src o -> run (ops ++ [c; TDestroy id; o]) = UB).
Proof.
  intros E Hl Hn Hne Hcp. destruct (after _ _ _ E) as (w & T & Ew & -> & H). destruct (at_id _ _ _ Hl) as (t & Ht & Et).
  pose proof (rt_wf _ _ _ _ H _ _ Ht) as W.
  set (w1 := TW (tw_heap w) (tw_al w) (<[id := ob t]> (tw_objs w))).
  assert (t_step cmp c w = Ok (OUnit, w1)) as E1.
  { destruct Hcp as [[-> Hi]|[-> Hi]]; cbn [t_step]; (erewrite bind_ok; [reflexivity|]).
    - unfold tw_copy_new. rewrite (RT_none _ _ _ _ _ H (not_id _ _ Hi)), (RT_lookup _ _ _ _ _ _ H Ht). reflexivity.
    - destruct Hi as [l' Hi]. destruct (at_id _ _ _ Hi) as (t' & Ht' & _). unfold tw_assign.
      rewrite (RT_lookup _ _ _ _ _ _ H Ht'), (RT_lookup _ _ _ _ _ _ H Ht). reflexivity. }
  destruct (clear_goes cmp _ _ (Z.of_nat (nodes t)) t W) as (h' & f' & Ecl & G).
  assert (exists a, rootp t = Some a /\ h' !! a = None) as (a & Ea & Hfree).
  { destruct t as [|l0 a hh v r]; [cbn in Et; congruence|]. exists a. split; [reflexivity|].
    rewrite (go_out _ _ _ _ _ _ _ G) by reflexivity. destruct (decide _) as [E0|]; [|reflexivity]. cbn [cnt] in E0. rewrite one_eq in E0. lia. }
  assert (forall i j, i <> j -> tw_objs w1 !! i = Some (ob t) -> tw_objs w1 !! j = Some (ob t) -> use j o ->
    mrun (t_step cmp) [TDestroy i; o] w1 = UB) as Hgo.
  { intros i j Hij Hi Hj Hu. cbn [mrun].
    assert (t_step cmp (TDestroy i) w1 = Ok (OUnit, TW h' f' (delete i (<[i := (None, 0)]> (tw_objs w1))))) as E2.
    { assert (on i bt_destroy w1 = Ok (tt, TW h' f' (<[i := (None, 0)]> (tw_objs w1)))) as E3.
      { unfold on. rewrite Hi. unfold ob. cbn [tw_heap tw_al w1]. change bt_destroy with (@bt_clear A). rewrite Ecl. reflexivity. }
      cbn [t_step]. unfold tw_destroy. rewrite bind_assoc, (bind_ok _ _ _ _ _ E3). reflexivity. }
    rewrite (bind_ok _ _ _ _ _ E2). apply bind_ub, bind_ub. eapply (use_dangling j o _ a); [exact Hu| |exact Hfree].
    cbn [tw_objs]. rewrite lookup_delete_ne by congruence. rewrite lookup_insert_ne by congruence. rewrite Hj. unfold ob. rewrite Ea. reflexivity. }
  assert (tw_objs w1 !! id = Some (ob t)) as Oid by (cbn; apply lookup_insert).
  assert (tw_objs w1 !! src = Some (ob t)) as Osrc by (cbn; rewrite lookup_insert_ne by congruence; apply (RT_lookup _ _ _ _ _ _ H Ht)).
  split; intros Hu; (eapply then_ub; [exact Ew|]; cbn [mrun]; rewrite (bind_ok _ _ _ _ _ E1); apply bind_ub).
  - apply (Hgo src id); auto.
  - apply (Hgo id src); auto.
Qed.

(** traversal() starts at the leftmost node. *)
Lemma lowest_small t : balanced t -> (length (elems (lowest t)) <= 2)%nat.
Proof.
  induction t as [|l0 IH a hh v r _]; [cbn; lia|]. intros Hb. destruct l0 as [|l1 b hb u r1].
  - cbn [lowest]. cbn [balanced depth elems app length] in *. destruct Hb as (Hb & _ & Hbr).
    assert (depth r <= 1) as Hd by lia. destruct r as [|r1 b hb u r2]; cbn; [lia|]. cbn [depth] in Hd.
    pose proof (depth_nonneg r1). pose proof (depth_nonneg r2).
    destruct r1 as [|? ? ? ? ?]; [|cbn [depth] in *; pose proof (depth_nonneg r1_1); lia].
    destruct r2 as [|? ? ? ? ?]; [|cbn [depth] in *; pose proof (depth_nonneg r2_1); lia]. cbn. lia.
  - destruct Hb as (_ & Hbl & _). exact (IH Hbl).
Qed.
Lemma length_ord o t : length (ord o t) = length (elems t).
Proof. destruct o; cbn [ord]; [rewrite length_pre|reflexivity|rewrite length_post]; pose proof (nodes_len t); lia. Qed.
Theorem t_traversal ops rs s id l o : srn ops = SVal (rs, s) -> s !! id = Some l -> l <> [] -> exists l' w,
  run (ops ++ [TTraverse id o]) = Ok (rs ++ [OList l'], w) /\
  (if match o with PreOrder => true | _ => false end then length l' = length l else (length l' <= 2)%nat).
Proof.
  intros E Hl Hn. destruct (after _ _ _ E) as (w & T & Ew & -> & H). destruct (at_id _ _ _ Hl) as (t & Ht & Et).
  pose proof (rt_wf _ _ _ _ H _ _ Ht) as W.
  assert (t <> Lf) as Hlf by (intros ->; cbn in Et; congruence).
  destruct (on_query cmp _ _ _ _ _ (bt_traversal o) _ H Ht (traversal_ok o t _ _ _ (or_intror Hlf) (wf_nd _ _ _ _ W) (wf_linked _ _ _ _ W))) as (w' & E' & _).
  eexists _, w'. split; [eapply then_ok; [exact Ew|]; apply one_ok; cbn [t_step]; erewrite bind_ok by exact E'; reflexivity|].
  destruct o.
  - rewrite <- Et. apply (length_ord PreOrder).
  - rewrite length_ord. apply lowest_small, (wf_avl _ _ _ _ W).
  - rewrite length_ord. apply lowest_small, (wf_avl _ _ _ _ W).
Qed.
End R.
