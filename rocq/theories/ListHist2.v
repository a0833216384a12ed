(** Linked lists: moving, copying, and whole histories. *)
From Verif Require Import Base Alloc AllocProofs VectorModel VectorSpec Adapter Hist ListModel ListSpec ListProofs ListHist.

Section Move.
Context {A : Type} (junk : A) (d : bool).
Implicit Types (C : gmap ptr (cell A)) (st : lst A) (p q r : ptr) (xs ys us vs : list (nat * A)) (lay : gmap nat (list (nat * A))).

Lemma stc_ok st p c : is_Some (dt (l_cells st) p) -> exists C',
  stc p c st = Ok (tt, set_cells C' st) /\
  (forall r, nx C' r = if decide (r = p) then c_next c else nx (l_cells st) r) /\
  (forall r, pv C' r = if decide (r = p) then c_prev c else pv (l_cells st) r) /\
  (forall r, dt C' r = if decide (r = p) then Some (c_dat c) else dt (l_cells st) r).
Proof.
  intros [a (c' & E & _)%dt_some]. unfold stc. rewrite E. eexists. split; [reflexivity|].
  unfold nx, pv, dt. split; [|split]; intros r; (destruct (decide (r = p)) as [->|Hn]; [rewrite lookup_insert; reflexivity|rewrite lookup_insert_ne by congruence; reflexivity]).
Qed.

Lemma base_move lay st id src xs ys : inv d lay st -> lay !! id = Some xs -> lay !! src = Some ys -> id <> src ->
  exists st1 st2, inv d (<[id := []]> lay) st1 /\ l_tail st1 = l_tail st /\
  ll_move d id src st = Ok (tt, st2) /\ l_tail st2 = l_tail st /\ (l_al st2 = l_al st1 /\ al_pol (l_al st1) = al_pol (l_al st)) /\
  l_size st2 = <[src := 0]> (<[id := length ys]> (l_size st1)) /\
  (forall r, nx (l_cells st2) r = if decide (r = Head src) then Some (Head src) else if decide (r = Head id) then nx (l_cells st1) (Head src) else nx (l_cells st1) r) /\
  (d = true -> forall r, pv (l_cells st2) r = if decide (r = Head src) then Some (Head src) else if decide (r = Head id) then pv (l_cells st1) (Head src) else pv (l_cells st1) r) /\
  (forall r, dt (l_cells st2) r = if decide (r = Head id) then dt (l_cells st1) (Head src) else dt (l_cells st1) r).
Proof.
  intros H Ei Es Hne. destruct (clear_ok _ _ _ _ _ H Ei) as (st1 & R1 & Hi & Ht & Hcf).
  assert (Es1 : <[id := []]> lay !! src = Some ys) by (rewrite lookup_insert_ne by congruence; exact Es).
  assert (Hh : is_Some (dt (l_cells st1) (Head id))) by (apply (i_heads _ _ _ Hi); rewrite lookup_insert; eauto).
  assert (Hs : is_Some (dt (l_cells st1) (Head src))) by (apply (i_heads _ _ _ Hi); eauto).
  destruct Hs as [b Hb]. pose proof (dt_some _ _ _ Hb) as (c & Ec & _).
  destruct (stc_ok st1 (Head id) c Hh) as (C2 & R2 & N2 & P2 & D2).
  set (st2 := LSt C2 (l_al st1) (<[id := length ys]> (l_size st1)) (l_tail st1)).
  destruct (link_init_ok d st2 (Head src)) as (C3 & R3 & N3 & P3 & D3).
  { simpl. rewrite D2, decide_False by congruence. eauto. }
  simpl in N3, P3, D3.
  exists st1, (LSt C3 (l_al st1) (<[src := 0]> (<[id := length ys]> (l_size st1))) (l_tail st1)).
  split; [exact Hi|]. split; [exact Ht|]. split.
  { unfold ll_move. rewrite (bind_ok _ _ _ _ _ R1).
    rewrite (bind_ok _ _ st1 c st1) by (unfold ld; rewrite Ec; reflexivity). rewrite (bind_ok _ _ _ _ _ R2).
    rewrite (bind_ok _ _ _ _ _ (ld_size_ok (set_cells C2 st1) src _ (size_of _ _ _ _ _ Hi Es1))).
    erewrite bind_ok by (apply (st_size_ok (set_cells C2 st1) id _ _ (size_of _ _ _ _ _ Hi (lookup_insert _ _ _)))).
    cbn [l_cells l_al l_size l_tail set_cells]. change (LSt C2 _ _ _) with st2. rewrite (bind_ok _ _ _ _ _ R3).
    erewrite st_size_ok; [reflexivity|]. simpl. rewrite lookup_insert_ne by congruence. apply (size_of _ _ _ _ _ Hi Es1). }
  cbn [l_cells l_al l_size l_tail]. split; [exact Ht|]. split; [split; [reflexivity|exact Hcf]|]. split; [reflexivity|].
  split; [|split].
  - intros r. rewrite N3, N2. unfold nx at 2. rewrite Ec. reflexivity.
  - intros Hd r. rewrite (P3 Hd), P2. unfold pv at 2. rewrite Ec. reflexivity.
  - intros r. rewrite D3, D2. unfold dt at 2. rewrite Ec. reflexivity.
Qed.

Lemma last_nodes ys : ys <> [] -> exists us b x, ys = us ++ [(b, x)] /\ last (nodes ys) = Some (Node b) /\ forall id, last (Head id :: nodes ys) = Some (Node b).
Proof.
  intros Hne. destruct (exists_last Hne) as (us & [b x] & ->). exists us, b, x. split; [reflexivity|].
  rewrite nodes_app. simpl. split; [apply last_snoc|]. intros id. rewrite app_comm_cons. apply last_snoc.
Qed.

Lemma inv_moved lay st1 st3 id src ys :
  inv d lay st1 -> lay !! id = Some [] -> lay !! src = Some ys -> id <> src -> ys <> [] ->
  (forall r, nx (l_cells st3) r = if decide (Some r = last (nodes ys)) then Some (Head id)
     else if decide (r = Head src) then Some (Head src) else if decide (r = Head id) then nx (l_cells st1) (Head src) else nx (l_cells st1) r) ->
  (d = true -> forall r, pv (l_cells st3) r = if decide (Some r = head (nodes ys)) then Some (Head id)
     else if decide (r = Head src) then Some (Head src) else if decide (r = Head id) then pv (l_cells st1) (Head src) else pv (l_cells st1) r) ->
  (forall r, dt (l_cells st3) r = if decide (r = Head id) then dt (l_cells st1) (Head src) else dt (l_cells st1) r) ->
  l_al st3 = l_al st1 -> l_size st3 = <[src := 0]> (<[id := length ys]> (l_size st1)) ->
  inv d (<[src := []]> (<[id := ys]> lay)) st3.
Proof.
  intros H Ei Es Hne Hys N P D Hf Hs.
  assert (Hl : forall r, Some r = last (nodes ys) -> r ∈ nodes ys).
  { intros r Hr. apply last_Some_elem_of. congruence. }
  assert (Hhd : forall r, Some r = head (nodes ys) -> r ∈ nodes ys).
  { intros r Hr. apply head_Some_elem_of. congruence. }
  assert (Hhs : is_Some (dt (l_cells st1) (Head src))) by (apply (i_heads _ _ _ H); eauto).
  assert (Dn : forall a, dt (l_cells st3) (Node a) = dt (l_cells st1) (Node a)) by (intros a; rewrite D, decide_False by discriminate; reflexivity).
  pose proof (i_nodup _ _ _ H _ _ Es) as Hnd.
  assert (Hother : forall j zs, j <> id -> j <> src -> lay !! j = Some zs -> forall r, r ∈ Head j :: nodes zs ->
     nx (l_cells st3) r = nx (l_cells st1) r /\ (d = true -> pv (l_cells st3) r = pv (l_cells st1) r)).
  { intros j zs Hji Hjs Ej r Hr.
    assert (Hny : r ∉ nodes ys).
    { intros Hy. apply elem_points in Hr as [->|Hr]; [apply (head_nodes _ _ Hy)|].
      unfold nodes in Hr. apply elem_of_list_fmap in Hr as (a & -> & Ha). apply elem_nodes in Hy.
      apply Hjs. apply (i_disj _ _ _ H _ _ _ _ a Ej Es Ha Hy). }
    assert (r <> Head src). { intros ->. apply elem_points in Hr as [[=]|Hr]; [congruence|]. apply (head_nodes _ _ Hr). }
    assert (r <> Head id). { intros ->. apply elem_points in Hr as [[=]|Hr]; [congruence|]. apply (head_nodes _ _ Hr). }
    split; [rewrite N, !decide_False by auto; reflexivity|]. intros Hd. rewrite (P Hd), !decide_False by auto. reflexivity. }
  constructor.
  - intros j zs [[<- <-]|[Hj [[<- <-]|[Hj2 Ej]]%lookup_insert_Some]]%lookup_insert_Some.
    + simpl. split; [|exact I]. split.
      * rewrite N, decide_False, decide_True; [reflexivity|reflexivity|]. intros Hx%Hl. apply (head_nodes _ _ Hx).
      * intros Hd. rewrite (P Hd), decide_False, decide_True; [reflexivity|reflexivity|]. intros Hx%Hhd. apply (head_nodes _ _ Hx).
    + unfold ringl. apply (path_rehead d (nx (l_cells st1)) (pv (l_cells st1)) _ _ (Head src)).
      * destruct ys; [contradiction|discriminate].
      * apply NoDup_cons. split; [apply head_nodes|]. apply nodes_nodup. exact Hnd.
      * apply NoDup_cons. split; [apply head_nodes|]. apply nodes_nodup. exact Hnd.
      * apply (i_ring _ _ _ H _ _ Es).
      * rewrite N, decide_False, decide_False, decide_True; [reflexivity|reflexivity|congruence|]. intros Hx%Hl. apply (head_nodes _ _ Hx).
      * intros Hd. rewrite (P Hd), decide_False, decide_False, decide_True; [reflexivity|reflexivity|congruence|]. intros Hx%Hhd. apply (head_nodes _ _ Hx).
      * intros r Hr Hr2. rewrite N, !decide_False; [reflexivity| | |exact Hr2]; intros ->; apply (head_nodes _ _ Hr).
      * intros r Hr. rewrite N, decide_True by congruence. reflexivity.
      * intros Hd r Hr Hr2. rewrite (P Hd), !decide_False; [reflexivity| | |exact Hr2]; intros ->; apply (head_nodes _ _ Hr).
      * intros Hd r Hr. rewrite (P Hd), decide_True by congruence. reflexivity.
    + apply (path_frame d (nx (l_cells st1)) (pv (l_cells st1))); [apply (i_ring _ _ _ H _ _ Ej)| |].
      * intros r Hr. rewrite ringl_removelast in Hr. apply (Hother j zs); auto.
      * intros Hd r Hr. apply (Hother j zs); auto. simpl in Hr.
        apply elem_of_app in Hr as [Hr| ->%elem_of_list_singleton]; [right; exact Hr|left].
  - intros j zs a x [[<- <-]|[Hj [[<- <-]|[Hj2 Ej]]%lookup_insert_Some]]%lookup_insert_Some Hx; [inversion Hx| |]; rewrite Dn.
    + eapply i_dat; [exact H|exact Es|exact Hx].
    + eapply i_dat; [exact H|exact Ej|exact Hx].
  - intros j zs [[<- <-]|[Hj [[<- <-]|[Hj2 Ej]]%lookup_insert_Some]]%lookup_insert_Some; [constructor|exact Hnd|eapply i_nodup; eassumption].
  - intros i j us vs a Hi Hj Ha Hb.
    assert (Hback : forall k ws, <[src:=[]]> (<[id:=ys]> lay) !! k = Some ws -> a ∈ ws.*1 ->
       (k = id /\ ws = ys) \/ (k <> id /\ k <> src /\ lay !! k = Some ws)).
    { intros k ws [[<- <-]|[Hk [[<- <-]|[Hk2 Ek]]%lookup_insert_Some]]%lookup_insert_Some Hw; [inversion Hw|left; auto|right; auto]. }
    destruct (Hback i us Hi Ha) as [[-> ->]|(Hi1 & Hi2 & Hi')]; destruct (Hback j vs Hj Hb) as [[-> ->]|(Hj1 & Hj2 & Hj')]; try reflexivity.
    + exfalso. apply Hj2. apply (i_disj _ _ _ H _ _ _ _ a Hj' Es Hb Ha).
    + exfalso. apply Hi2. apply (i_disj _ _ _ H _ _ _ _ a Hi' Es Ha Hb).
    + apply (i_disj _ _ _ H _ _ _ _ a Hi' Hj' Ha Hb).
  - intros a. rewrite Dn. intros (j & zs & Ej & Hz)%(i_nodes _ _ _ H). destruct (decide (j = src)) as [->|Hj].
    + exists id, ys. split; [rewrite lookup_insert_ne by congruence; apply lookup_insert|]. congruence.
    + exists j, zs. split; [|exact Hz]. rewrite !lookup_insert_ne; [exact Ej| |congruence]. intros <-. rewrite Ei in Ej. injection Ej as <-. inversion Hz.
  - intros j. rewrite D. destruct (decide (j = src)) as [->|Hj]; [|destruct (decide (j = id)) as [->|Hj2]].
    + rewrite lookup_insert, decide_False by congruence. split; [eauto|intros _; exact Hhs].
    + rewrite lookup_insert_ne, lookup_insert, decide_True by congruence. split; [eauto|intros _; exact Hhs].
    + rewrite !lookup_insert_ne, decide_False by congruence. apply (i_heads _ _ _ H).
  - intros j. rewrite Hs. destruct (decide (j = src)) as [->|Hj]; [|destruct (decide (j = id)) as [->|Hj2]].
    + rewrite !lookup_insert. reflexivity.
    + rewrite (lookup_insert_ne _ src id), (lookup_insert_ne _ src id), !lookup_insert by congruence. reflexivity.
    + rewrite !lookup_insert_ne by congruence. apply (i_size _ _ _ H).
  - intros a. rewrite Dn, Hf. apply (i_al _ _ _ H).
  - rewrite Hf. apply (i_sound _ _ _ H).
  - rewrite Hf. apply (i_served _ _ _ H).
Qed.
End Move.

(** ** Doubly linked lists *)
Section DLL.
Context {A : Type} (junk : A).
Implicit Types (C : gmap ptr (cell A)) (st : lst A) (p q r : ptr) (xs ys us vs : list (nat * A)) (lay : gmap nat (list (nat * A))).

Lemma ring_prev lay st id us vs p : inv true lay st -> lay !! id = Some (us ++ vs) -> last (Head id :: nodes us) = Some p ->
  forall q, head (nodes vs ++ [Head id]) = Some q -> pv (l_cells st) q = Some p.
Proof.
  intros H E Hp q Hq. destruct (ringl_split id us vs) as (l1 & p' & q' & l2 & E1 & Hp' & E2 & Hq' & Hspl).
  pose proof (i_ring _ _ _ H _ _ E) as Hring. pose proof (Hspl []) as Hs. simpl in Hs. rewrite Hs in Hring.
  apply path_app in Hring as [_ [[_ Hx] _]]. rewrite Hp in Hp'. rewrite Hq in Hq'. injection Hp' as <-. injection Hq' as <-. auto.
Qed.

Lemma dl_push_back_got lay st id xs a n : inv true lay st -> lay !! id = Some xs -> al_pick (l_al st) = Some n -> exists st',
  dl_push_back true id a st = Ok (tt, st') /\ inv true (<[id := xs ++ [(n, a)]]> lay) st' /\ al_pol (l_al st') = al_pol (l_al st).
Proof.
  intros H E Hpk. destruct (last (Head id :: nodes xs)) as [p|] eqn:Hp; [|apply last_None in Hp; discriminate].
  rewrite <- (app_nil_r xs) in E.
  destruct (push_at true lay st id xs [] a p n H E Hp Hpk) as (C1 & R1 & Hn & Hpv & st' & R2 & Hi & _ & Hf).
  exists st'. split; [|split; [exact Hi|rewrite Hf; reflexivity]].
  unfold dl_push_back. rewrite R1.
  pose proof (ring_prev _ _ _ _ _ _ H E Hp (Head id) eq_refl) as Hx. rewrite <- Hpv in Hx.
  erewrite bind_ok by (apply ld_prev_ok'; exact Hx). cbn [nonnull]. rewrite bind_ret.
  specialize (R2 unit ret). unfold bind in R2 |- *.
  destruct (link_add true p (Node n) _) as [[[] w]| | |]; try discriminate.
  destruct (ld_size id w) as [[m w2]| | |]; try discriminate.
  destruct (st_size id (S m) w2) as [[[] w3]| | |]; try discriminate. exact R2.
Qed.
Lemma dl_push_back_ok lay st id xs a : inv true lay st -> lay !! id = Some xs ->
  (exists st' n, dl_push_back true id a st = Ok (tt, st') /\ inv true (<[id := xs ++ [(n, a)]]> lay) st' /\ al_pol (l_al st') = al_pol (l_al st)) \/
  refused st (S (tot lay)) (dl_push_back true id a st).
Proof.
  intros H E. destruct (al_pick (l_al st)) as [n|] eqn:Hn.
  - left. destruct (dl_push_back_got _ _ _ _ a _ H E Hn) as (st' & Hst). exists st', n. exact Hst.
  - right. split; [|eapply refuses_now; eassumption]. unfold dl_push_back. eapply prep_refused; eassumption.
Qed.

Lemma dl_pop_back_ok lay st id us a x : inv true lay st -> lay !! id = Some (us ++ [(a, x)]) -> exists st',
  dl_pop_back true id st = Ok (tt, st') /\ inv true (<[id := us]> lay) st' /\ l_al st' = al_gave a (l_al st).
Proof.
  intros H E. destruct (last (Head id :: nodes us)) as [p|] eqn:Hp; [|apply last_None in Hp; discriminate].
  destruct (pop_at true lay st id us a x [] p H E Hp) as (st' & R & Hs & Ht & Hi & _ & Hf). rewrite app_nil_r in Hs, Hi.
  exists st'. split; [|split; [exact Hi|exact Hf]]. unfold dl_pop_back.
  rewrite (bind_ok _ _ _ _ _ (ld_size_ok _ _ _ (size_of _ _ _ _ _ H E))). rewrite app_length, Nat.add_1_r.
  cbn [length Nat.ltb Nat.leb dassert]. rewrite bind_ret.
  assert (H1 : pv (l_cells st) (Head id) = Some (Node a)).
  { pose proof E as E'. rewrite <- (app_nil_r (us ++ _)) in E'. apply (ring_prev _ _ _ _ _ _ H E'); [|reflexivity].
    rewrite nodes_app, app_comm_cons. apply last_snoc. }
  assert (H2 : pv (l_cells st) (Node a) = Some p) by (apply (ring_prev _ _ _ _ _ _ H E Hp); reflexivity).
  rewrite (bind_ok _ _ _ _ _ (ld_prev_ok' _ _ _ H1)). cbn [nonnull]. rewrite bind_ret.
  rewrite (bind_ok _ _ _ _ _ (ld_prev_ok' _ _ _ H2)). cbn [nonnull]. rewrite bind_ret.
  rewrite R. f_equal. f_equal. destruct st'; simpl in *. f_equal; [|congruence]. rewrite Hs. f_equal. lia.
Qed.
Lemma dl_pop_back_abort lay st id : inv true lay st -> lay !! id = Some [] -> dl_pop_back true id st = Abort.
Proof. intros H E. unfold dl_pop_back. rewrite (bind_ok _ _ _ _ _ (ld_size_ok _ _ _ (size_of _ _ _ _ _ H E))). reflexivity. Qed.

Lemma dl_back_ok lay st id us a x : inv true lay st -> lay !! id = Some (us ++ [(a, x)]) -> dl_back id st = Ok (x, st).
Proof.
  intros H E. unfold dl_back. rewrite (bind_ok _ _ _ _ _ (ld_size_ok _ _ _ (size_of _ _ _ _ _ H E))). rewrite app_length, Nat.add_1_r.
  cbn [length Nat.ltb Nat.leb dassert]. rewrite bind_ret.
  assert (H1 : pv (l_cells st) (Head id) = Some (Node a)).
  { pose proof E as E'. rewrite <- (app_nil_r (us ++ _)) in E'. apply (ring_prev _ _ _ _ _ _ H E'); [|reflexivity].
    rewrite nodes_app, app_comm_cons. apply last_snoc. }
  rewrite (bind_ok _ _ _ _ _ (ld_prev_ok' _ _ _ H1)). cbn [nonnull]. rewrite bind_ret.
  apply ld_dat_ok. eapply i_dat; [exact H|exact E|]. apply elem_of_app. right. left.
Qed.
Lemma dl_back_abort lay st id : inv true lay st -> lay !! id = Some [] -> dl_back id st = Abort.
Proof. intros H E. unfold dl_back. rewrite (bind_ok _ _ _ _ _ (ld_size_ok _ _ _ (size_of _ _ _ _ _ H E))). reflexivity. Qed.

Lemma dl_riter_loop_ok lay st id xs f : inv true lay st -> lay !! id = Some xs -> head (nodes xs ++ [Head id]) = Some f ->
  forall us vs fuel q, xs = us ++ vs -> head (nodes vs ++ [Head id]) = Some q -> length us < fuel ->
  dl_riter_loop fuel q f st = Ok (rev (us.*2), st).
Proof.
  intros H E Hf. induction us as [|[a x] us IH] using rev_ind; intros vs fuel q -> Hq Hl; (destruct fuel as [|fuel]; [lia|]); cbn [dl_riter_loop].
  - simpl in Hf. rewrite Hq in Hf. injection Hf as <-. rewrite bool_decide_eq_true_2 by reflexivity. reflexivity.
  - assert (Hqf : q <> f).
    { pose proof (ringl_nodup2 id _ (i_nodup _ _ _ H _ _ E)) as Hnd. simpl in Hnd.
      rewrite nodes_app, <- app_assoc in Hnd, Hf. apply NoDup_app in Hnd as (_ & Hnd & _).
      assert (Hq' : q ∈ nodes vs ++ [Head id]) by (apply head_Some_elem_of; exact Hq).
      assert (Hf' : f ∈ nodes (us ++ [(a, x)])).
      { rewrite nodes_app in Hf |- *. destruct (nodes us) as [|b l]; simpl in *; injection Hf as <-; left. }
      intros ->. apply (Hnd _ Hf' Hq'). }
    rewrite bool_decide_eq_false_2 by exact Hqf.
    assert (Hp : pv (l_cells st) q = Some (Node a)).
    { apply (ring_prev _ _ _ (us ++ [(a, x)]) vs _ H E); [|exact Hq]. rewrite nodes_app, app_comm_cons. apply last_snoc. }
    rewrite (bind_ok _ _ _ _ _ (ld_prev_ok' _ _ _ Hp)). cbn [nonnull]. rewrite bind_ret.
    rewrite (bind_ok _ _ _ _ _ (ld_dat_ok _ _ _ (i_dat _ _ _ H _ _ a x E ltac:(apply elem_of_app; left; apply elem_of_app; right; left)))).
    rewrite app_length in Hl. simpl in Hl.
    erewrite bind_ok; [|apply (IH ((a, x) :: vs)); [rewrite <- app_assoc; reflexivity|reflexivity|lia]].
    unfold ret. rewrite fmap_app. simpl. rewrite rev_app_distr. reflexivity.
Qed.
Lemma dl_riter_ok lay st id xs : inv true lay st -> lay !! id = Some xs -> dl_riter id st = Ok (rev (xs.*2), st).
Proof.
  intros H E. unfold dl_riter. pose proof (i_ring _ _ _ H _ _ E) as Hring. unfold ringl in Hring.
  destruct (nodes xs ++ [Head id]) as [|q l2] eqn:Eq; [destruct (nodes xs); discriminate|]. destruct Hring as [[Hx _] _].
  rewrite (bind_ok _ _ _ _ _ (ld_next_ok' _ _ _ Hx)). cbn [nonnull]. rewrite bind_ret.
  apply (dl_riter_loop_ok _ _ _ _ _ H E ltac:(rewrite Eq; reflexivity) xs []); [symmetry; apply app_nil_r|reflexivity|].
  pose proof (ring_fits _ _ _ _ _ H E). lia.
Qed.

Lemma dl_copy_loop_ok id src ys : id <> src -> forall vs us lay st xs fuel p,
  inv true lay st -> lay !! id = Some xs -> lay !! src = Some ys -> ys = us ++ vs ->
  head (nodes vs ++ [Head src]) = Some p -> length vs < fuel ->
  (exists st' zs, dl_copy_loop true fuel id p (Head src) st = Ok (tt, st') /\ inv true (<[id := xs ++ zs]> lay) st' /\ zs.*2 = vs.*2 /\
    al_pol (l_al st') = al_pol (l_al st)) \/
  refused st (tot lay + length vs) (dl_copy_loop true fuel id p (Head src) st).
Proof.
  intros Hne. induction vs as [|[a x] vs IH]; intros us lay st xs fuel p H Ei Es Ey Hp Hf; (destruct fuel as [|fuel]; [lia|]); cbn [dl_copy_loop]; simpl in Hp; injection Hp as <-.
  - rewrite bool_decide_eq_true_2 by reflexivity. left. exists st, []. split; [reflexivity|]. rewrite app_nil_r, insert_id by exact Ei. auto.
  - rewrite bool_decide_eq_false_2 by discriminate.
    assert (Hin : (a, x) ∈ ys) by (rewrite Ey; apply elem_of_app; right; left).
    rewrite (bind_ok _ _ _ _ _ (ld_dat_ok _ _ _ (i_dat _ _ _ H _ _ a x Es Hin))).
    destruct (dl_push_back_ok _ _ _ _ x H Ei) as [(st1 & n & R1 & Hi & Hf1)|[R1 Hr]].
    2: { right. split; [apply bind_abort; exact R1|]. eapply refuses_mono; [exact Hr|]. simpl. lia. }
    rewrite (bind_ok _ _ _ _ _ R1).
    assert (Es1 : <[id := xs ++ [(n, x)]]> lay !! src = Some ys) by (rewrite lookup_insert_ne by congruence; exact Es).
    pose proof (i_ring _ _ _ Hi _ _ Es1) as Hring. rewrite Ey in Hring. unfold ringl in Hring. rewrite nodes_app in Hring. cbn [nodes fmap list_fmap] in Hring.
    rewrite <- app_assoc in Hring. simpl app in Hring. rewrite app_comm_cons in Hring. apply path_app in Hring as [_ Hring].
    fold (nodes vs) in Hring.
    destruct (nodes vs ++ [Head src]) as [|q l2] eqn:Eq; [destruct (nodes vs); discriminate|].
    destruct Hring as [[Hx _] _].
    rewrite (bind_ok _ _ _ _ _ (ld_next_ok' _ _ _ Hx)). cbn [nonnull]. rewrite bind_ret.
    destruct (IH (us ++ [(a, x)]) _ _ _ fuel q Hi (lookup_insert _ _ _) Es1) as [(st' & zs & R2 & Hi2 & E2 & Hf2)|[R2 Hr]];
      [rewrite <- app_assoc; exact Ey|reflexivity|simpl in Hf; lia| |].
    + left. exists st', ((n, x) :: zs). split; [exact R2|]. rewrite insert_insert, <- app_assoc in Hi2. split; [exact Hi2|].
      split; [exact (f_equal (cons x) E2)|rewrite Hf2; exact Hf1].
    + right. split; [exact R2|]. rewrite Hf1 in Hr. pose proof (tot_insert lay id xs (xs ++ [(n, x)]) Ei) as Ht.
      rewrite app_length in Ht. simpl in Ht. eapply refuses_mono; [exact Hr|]. simpl. lia.
Qed.
Lemma dl_assign_ok lay st id src xs ys : inv true lay st -> lay !! id = Some xs -> lay !! src = Some ys -> id <> src ->
  (exists st' xs', dl_assign true id src st = Ok (tt, st') /\ inv true (<[id := xs']> lay) st' /\ xs'.*2 = ys.*2 /\ al_pol (l_al st') = al_pol (l_al st)) \/
  refused st (tot (<[id := ys]> lay)) (dl_assign true id src st).
Proof.
  intros H Ei Es Hne. unfold dl_assign. rewrite (proj2 (Nat.eqb_neq id src) Hne).
  destruct (clear_ok _ _ _ _ _ H Ei) as (st1 & R1 & Hi & _ & Hf1). rewrite (bind_ok _ _ _ _ _ R1).
  assert (Es1 : <[id := []]> lay !! src = Some ys) by (rewrite lookup_insert_ne by congruence; exact Es).
  pose proof (i_ring _ _ _ Hi _ _ Es1) as Hring. unfold ringl in Hring.
  destruct (nodes ys ++ [Head src]) as [|q l2] eqn:Eq; [destruct (nodes ys); discriminate|]. destruct Hring as [[Hx _] _].
  rewrite (bind_ok _ _ _ _ _ (ld_next_ok' _ _ _ Hx)). cbn [nonnull]. rewrite bind_ret.
  destruct (dl_copy_loop_ok id src ys Hne ys [] _ _ [] (S (size (l_cells st1))) q Hi (lookup_insert _ _ _) Es1 eq_refl) as [(st' & zs & R2 & Hi2 & E2 & Hf2)|[R2 Hr]];
    [rewrite Eq; reflexivity|pose proof (ring_fits _ _ _ _ _ Hi Es1); lia| |].
  - left. exists st', zs. split; [exact R2|]. rewrite insert_insert in Hi2. rewrite Hf2, Hf1. auto.
  - right. split; [exact R2|]. rewrite Hf1 in Hr. eapply refuses_mono; [exact Hr|].
    pose proof (tot_insert (<[id := []]> lay) id [] ys (lookup_insert _ _ _)) as Ht. rewrite insert_insert in Ht. simpl in Ht. lia.
Qed.

Lemma dl_move_ok lay st id src xs ys : inv true lay st -> lay !! id = Some xs -> lay !! src = Some ys -> id <> src -> ys <> [] ->
  exists st', dl_move true id src st = Ok (tt, st') /\ inv true (<[src := []]> (<[id := ys]> lay)) st' /\ al_pol (l_al st') = al_pol (l_al st).
Proof.
  intros H Ei Es Hne Hys.
  destruct (base_move _ _ _ _ _ _ _ H Ei Es Hne) as (st1 & st2 & Hi & _ & R & _ & Hf & Hs & N & P & D). specialize (P eq_refl).
  assert (Es1 : <[id := []]> lay !! src = Some ys) by (rewrite lookup_insert_ne by congruence; exact Es).
  destruct (last_nodes ys Hys) as (us & b & x & Ey & Hl & _).
  assert (Hfirst : exists a, head (nodes ys) = Some (Node a) /\ nx (l_cells st1) (Head src) = Some (Node a)).
  { pose proof (i_ring _ _ _ Hi _ _ Es1) as Hring. destruct ys as [|[a y] ys']; [contradiction|]. exists a. split; [reflexivity|]. apply Hring. }
  destruct Hfirst as (a & Hhd & Hna).
  assert (Hpb : pv (l_cells st1) (Head src) = Some (Node b)).
  { rewrite <- (app_nil_r ys) in Es1. apply (ring_prev _ _ _ _ _ _ Hi Es1); [|reflexivity]. rewrite Ey, nodes_app, app_comm_cons. apply last_snoc. }
  unfold dl_move. rewrite (proj2 (Nat.eqb_neq id src) Hne). rewrite (bind_ok _ _ _ _ _ R).
  assert (Hp2 : pv (l_cells st2) (Head id) = Some (Node b)) by (rewrite P, decide_False, decide_True by congruence; exact Hpb).
  rewrite (bind_ok _ _ _ _ _ (ld_prev_ok' _ _ _ Hp2)). cbn [nonnull]. rewrite bind_ret.
  assert (Hlb : is_Some (dt (l_cells st1) (Node b))).
  { apply (i_live true (<[id:=[]]> lay) st1 src ys); [exact Hi|exact Es1|]. apply elem_nodes, last_Some_elem_of. exact Hl. }
  assert (Hla : is_Some (dt (l_cells st1) (Node a))).
  { apply (i_live true (<[id:=[]]> lay) st1 src ys); [exact Hi|exact Es1|]. apply elem_nodes, head_Some_elem_of. exact Hhd. }
  destruct (st_next_ok st2 (Node b) (Some (Head id))) as (C3 & R3 & N3 & P3 & D3); [rewrite D, decide_False by discriminate; exact Hlb|].
  rewrite (bind_ok _ _ _ _ _ R3).
  assert (Hn3 : nx C3 (Head id) = Some (Node a)).
  { rewrite N3, decide_False, N, decide_False, decide_True by congruence. exact Hna. }
  rewrite (bind_ok _ _ _ _ _ (ld_next_ok' (set_cells C3 st2) _ _ Hn3)). cbn [nonnull]. rewrite bind_ret.
  destruct (st_prev_ok (set_cells C3 st2) (Node a) (Some (Head id))) as (C4 & R4 & N4 & P4 & D4).
  { simpl. rewrite D3, D, decide_False by discriminate. exact Hla. }
  simpl in N4, P4, D4. eexists. split; [exact R4|]. split; [|cbn [l_al set_cells]; destruct Hf as [-> ->]; reflexivity]. apply proj1 in Hf.
  rewrite <- (insert_insert lay id ys []).
  apply (inv_moved _ _ st1); cbn [l_cells set_cells l_al l_size]; try assumption; [apply lookup_insert| | |].
  - intros r. rewrite N4, N3, N, Hl. repeat case_decide; congruence.
  - intros _ r. rewrite P4, P3, P, Hhd. repeat case_decide; congruence.
  - intros r. rewrite D4, D3, D. reflexivity.
Qed.

(** ** Histories *)
Definition dlR (pol : policy) (s : gmap nat (list A)) st : Prop := exists lay, s = (fun xs => xs.*2) <$> lay /\ inv true lay st /\ al_pol (l_al st) = pol.

Lemma dlR_look lay s id l : s = (fun xs => xs.*2) <$> lay -> s !! id = Some l -> exists xs, lay !! id = Some xs /\ l = xs.*2.
Proof. intros -> H. rewrite lookup_fmap in H. apply fmap_Some in H as (xs & E & ->). eauto. Qed.
Lemma dlR_none lay s id : s = (fun xs => xs.*2) <$> lay -> s !! id = None -> lay !! id = None.
Proof. intros -> H. rewrite lookup_fmap in H. apply fmap_None in H. exact H. Qed.

Lemma dl_fill_ok id a : forall n lay st xs, inv true lay st -> lay !! id = Some xs ->
  (exists st' zs, dl_fill_loop true n id a st = Ok (tt, st') /\ inv true (<[id := xs ++ zs]> lay) st' /\ zs.*2 = repeat a n /\ al_pol (l_al st') = al_pol (l_al st)) \/
  refused st (tot lay + n) (dl_fill_loop true n id a st).
Proof.
  induction n as [|n IH]; intros lay st xs H E; cbn [dl_fill_loop].
  - left. exists st, []. rewrite app_nil_r, insert_id by exact E. auto.
  - destruct (dl_push_back_ok _ _ _ _ a H E) as [(st1 & k & R1 & Hi & Hf1)|[R1 Hr]].
    2: { right. split; [apply bind_abort; exact R1|]. eapply refuses_mono; [exact Hr|]. lia. }
    rewrite (bind_ok _ _ _ _ _ R1).
    destruct (IH _ _ _ Hi (lookup_insert _ _ _)) as [(st' & zs & R2 & Hi2 & E2 & Hf2)|[R2 Hr]].
    + left. exists st', ((k, a) :: zs). split; [exact R2|].
      rewrite insert_insert, <- app_assoc in Hi2. split; [exact Hi2|]. split; [exact (f_equal (cons a) E2)|rewrite Hf2; exact Hf1].
    + right. split; [exact R2|]. rewrite Hf1 in Hr. pose proof (tot_insert lay id xs (xs ++ [(k, a)]) E) as Ht.
      rewrite app_length in Ht. simpl in Ht. eapply refuses_mono; [exact Hr|]. lia.
Qed.

Lemma unit_out_ok (m : M (lst A) unit) st st' : m st = Ok (tt, st') -> unit_out m st = Ok (RUnit, st').
Proof. intros H. unfold unit_out. rewrite (bind_ok _ _ _ _ _ H). reflexivity. Qed.
Lemma unit_out_abort (m : M (lst A) unit) st : m st = Abort -> unit_out m st = Abort.
Proof. intros H. unfold unit_out. rewrite (bind_abort _ _ _ H). reflexivity. Qed.

Ltac pol := repeat match goal with H : l_al ?x = _ |- context [l_al ?x] => rewrite H | H : al_pol (l_al ?x) = _ |- context [al_pol (l_al ?x)] => rewrite H end;
  try reflexivity; try assumption.
Ltac upd := left; eexists; split; [first [apply unit_out_ok|idtac]|eexists; split; [|split; [eassumption|pol]]; rewrite ?fmap_insert, ?fmap_delete; subst; try reflexivity].
Ltac same lay := left; eexists; split; [|exists lay; split; [eassumption|split; [eassumption|pol]]].
Theorem dl_step_or pol o s st : dlR pol s st -> magree_or (dlR pol) (fun s' => refuses pol (elements_total s')) (ls_step true o s) (dl_step junk o st).
Proof.
  intros (lay & Hs & H & Hpol). destruct o; cbn [ls_step dl_step]; unfold no_list, with_list.
  - destruct (s !! id) as [l|] eqn:E; [exact I|]. pose proof (dlR_none _ _ _ Hs E) as E'.
    destruct (init_ok junk true _ _ _ H E') as (st' & R & Hi & _ & Hf). upd. exact R.
  - destruct (s !! id) as [l|] eqn:E; [exact I|]. pose proof (dlR_none _ _ _ Hs E) as E'.
    destruct (init_ok junk true _ _ _ H E') as (st1 & R & Hi & _ & Hf).
    destruct (dl_fill_ok id a n _ _ _ Hi (lookup_insert _ _ _)) as [(st' & xs' & R2 & Hi2 & E2 & Hf2)|[R2 Hr]].
    + rewrite insert_insert in Hi2. upd; [rewrite (bind_ok _ _ _ _ _ R); exact R2|]. simpl. rewrite E2. reflexivity.
    + right. split; [apply unit_out_abort; rewrite (bind_ok _ _ _ _ _ R); exact R2|]. rewrite Hf, Hpol in Hr. eapply refuses_mono; [exact Hr|].
      rewrite (tot_new _ _ [] E'). simpl. rewrite et_new, repeat_length, Hs by exact E. unfold tot. lia.
  - destruct (s !! id) as [l|] eqn:E; [exact I|]. destruct (s !! src) as [l'|] eqn:E2; [|exact I].
    pose proof (dlR_none _ _ _ Hs E) as E'. destruct (dlR_look _ _ _ _ Hs E2) as (ys & E2' & ->).
    assert (Hne : id <> src) by congruence.
    destruct (init_ok junk true _ _ _ H E') as (st1 & R & Hi & _ & Hf).
    destruct (dl_assign_ok _ _ id src [] ys Hi (lookup_insert _ _ _)) as [(st' & xs' & R2 & Hi2 & E3 & Hf2)|[R2 Hr]]; [rewrite lookup_insert_ne by congruence; exact E2'|exact Hne| |].
    + rewrite insert_insert in Hi2. upd; [rewrite (bind_ok _ _ _ _ _ R); exact R2|]. rewrite E3. reflexivity.
    + right. split; [apply unit_out_abort; rewrite (bind_ok _ _ _ _ _ R); exact R2|]. rewrite Hf, Hpol, insert_insert in Hr.
      unfold tot in Hr. rewrite fmap_insert, <- Hs in Hr. exact Hr.
  - destruct (s !! id) as [l|] eqn:E; [exact I|]. destruct (s !! src) as [l'|] eqn:E2; [|exact I].
    pose proof (dlR_none _ _ _ Hs E) as E'. destruct (dlR_look _ _ _ _ Hs E2) as (ys & E2' & ->).
    assert (Hne : id <> src) by congruence. destruct (ys.*2) as [|b l] eqn:Ey; [exact I|]. rewrite <- Ey.
    destruct (init_ok junk true _ _ _ H E') as (st1 & R & Hi & _ & Hf).
    destruct (dl_move_ok _ _ id src [] ys Hi (lookup_insert _ _ _)) as (st' & R2 & Hi2 & Hf2); [rewrite lookup_insert_ne by congruence; exact E2'|exact Hne|intros ->; discriminate|].
    rewrite insert_insert in Hi2. upd. rewrite (bind_ok _ _ _ _ _ R); exact R2.
  - destruct (s !! id) as [l|] eqn:E; [|exact I]. destruct (s !! src) as [l'|] eqn:E2; [|exact I].
    destruct (Nat.eqb_spec id src) as [->|Hne].
    { same lay. apply unit_out_ok. unfold dl_assign. rewrite Nat.eqb_refl. reflexivity. }
    destruct (dlR_look _ _ _ _ Hs E) as (xs & E' & ->). destruct (dlR_look _ _ _ _ Hs E2) as (ys & E2' & ->).
    destruct (dl_assign_ok _ _ id src xs ys H E' E2' Hne) as [(st' & xs' & R2 & Hi2 & E3 & Hf2)|[R2 Hr]].
    + upd; [exact R2|]. rewrite E3. reflexivity.
    + right. split; [apply unit_out_abort; exact R2|]. rewrite Hpol in Hr. unfold tot in Hr. rewrite fmap_insert, <- Hs in Hr. exact Hr.
  - destruct (s !! id) as [l|] eqn:E; [|exact I]. destruct (s !! src) as [l'|] eqn:E2; [|exact I].
    destruct (Nat.eqb_spec id src) as [->|Hne].
    { same lay. apply unit_out_ok. unfold dl_move. rewrite Nat.eqb_refl. reflexivity. }
    destruct (dlR_look _ _ _ _ Hs E) as (xs & E' & ->). destruct (dlR_look _ _ _ _ Hs E2) as (ys & E2' & ->).
    destruct (ys.*2) as [|b l] eqn:Ey; [exact I|]. rewrite <- Ey.
    destruct (dl_move_ok _ _ id src xs ys H E' E2' Hne) as (st' & R2 & Hi2 & Hf); [intros ->; discriminate|].
    upd. exact R2.
  - destruct (s !! id) as [l|] eqn:E; [|exact I]. destruct (dlR_look _ _ _ _ Hs E) as (xs & E' & ->).
    destruct (destroy_ok _ _ _ _ _ H E') as (st' & R & Hi & _ & Hf). upd. exact R.
  - destruct (s !! id) as [l|] eqn:E; [|exact I]. destruct (dlR_look _ _ _ _ Hs E) as (xs & E' & ->).
    destruct (clear_ok _ _ _ _ _ H E') as (st' & R & Hi & _ & Hf). upd. exact R.
  - destruct (s !! id) as [l|] eqn:E; [|exact I]. destruct (dlR_look _ _ _ _ Hs E) as (xs & E' & ->).
    destruct (push_front_ok _ _ _ _ _ a H E') as [(st' & n & R & Hi & _ & _ & Hf)|[R Hr]].
    + upd. exact R.
    + right. split; [apply unit_out_abort; exact R|]. rewrite Hpol in Hr. eapply refuses_mono; [exact Hr|]. unfold tot. rewrite <- Hs.
      pose proof (et_insert _ _ _ (a :: xs.*2) E) as Ht. simpl in Ht. lia.
  - destruct (s !! id) as [l|] eqn:E; [|exact I]. destruct (dlR_look _ _ _ _ Hs E) as (xs & E' & ->).
    destruct (dl_push_back_ok _ _ _ _ a H E') as [(st' & n & R & Hi & Hf)|[R Hr]].
    + upd; [exact R|]. rewrite fmap_app. reflexivity.
    + right. split; [apply unit_out_abort; exact R|]. rewrite Hpol in Hr. eapply refuses_mono; [exact Hr|]. unfold tot. rewrite <- Hs.
      pose proof (et_insert _ _ _ (xs.*2 ++ [a]) E) as Ht. rewrite app_length in Ht. simpl in Ht. lia.
  - destruct (s !! id) as [l|] eqn:E; [|exact I]. destruct (dlR_look _ _ _ _ Hs E) as (xs & E' & ->).
    destruct xs as [|[a x] xs]; simpl.
    + apply unit_out_abort. eapply pop_front_abort; eassumption.
    + destruct (pop_front_ok _ _ _ _ _ _ _ H E') as (st' & R & Hi & _ & _ & Hf). upd. exact R.
  - destruct (s !! id) as [l|] eqn:E; [|exact I]. destruct (dlR_look _ _ _ _ Hs E) as (xs & E' & ->).
    destruct xs as [|[a x] us _] using rev_ind; [apply unit_out_abort; eapply dl_pop_back_abort; eassumption|].
    destruct (dl_pop_back_ok _ _ _ _ _ _ H E') as (st' & R & Hi & Hf).
    rewrite fmap_app. cbn [fmap list_fmap snd]. rewrite removelast_last. destruct (us.*2 ++ [x]) eqn:Eu; [destruct (us.*2); discriminate|].
    upd. exact R.
  - destruct (s !! id) as [l|] eqn:E; [|exact I]. destruct (dlR_look _ _ _ _ Hs E) as (xs & E' & ->).
    destruct (push_front_ok _ _ _ _ _ a H E') as [(st' & n & R & Hi & _ & _ & Hf)|[R Hr]].
    + upd. exact R.
    + right. split; [apply unit_out_abort; exact R|]. rewrite Hpol in Hr. eapply refuses_mono; [exact Hr|]. unfold tot. rewrite <- Hs.
      pose proof (et_insert _ _ _ (a :: xs.*2) E) as Ht. simpl in Ht. lia.
  - destruct (s !! id) as [l|] eqn:E; [|exact I]. destruct (dlR_look _ _ _ _ Hs E) as (xs & E' & ->).
    destruct xs as [|[a x] xs]; simpl.
    + apply unit_out_abort. eapply pop_front_abort; eassumption.
    + destruct (pop_front_ok _ _ _ _ _ _ _ H E') as (st' & R & Hi & _ & _ & Hf). upd. exact R.
  - destruct (s !! id) as [l|] eqn:E; [|exact I]. destruct (dlR_look _ _ _ _ Hs E) as (xs & E' & ->).
    destruct xs as [|[a x] xs]; simpl; [exact I|]. same lay.
    erewrite bind_ok by (eapply front_ok; eassumption). reflexivity.
  - destruct (s !! id) as [l|] eqn:E; [|exact I]. destruct (dlR_look _ _ _ _ Hs E) as (xs & E' & ->).
    destruct xs as [|[a x] us _] using rev_ind; [simpl; apply bind_abort; eapply dl_back_abort; eassumption|].
    rewrite fmap_app. cbn [fmap list_fmap snd]. rewrite last_snoc. same lay.
    erewrite bind_ok by (eapply dl_back_ok; eassumption). reflexivity.
  - destruct (s !! id) as [l|] eqn:E; [|exact I]. destruct (dlR_look _ _ _ _ Hs E) as (xs & E' & ->).
    same lay. rewrite (bind_ok _ _ _ _ _ (ld_size_ok _ _ _ (size_of _ _ _ _ _ H E'))). rewrite fmap_length. reflexivity.
  - destruct (s !! id) as [l|] eqn:E; [|exact I]. destruct (dlR_look _ _ _ _ Hs E) as (xs & E' & ->).
    same lay. erewrite bind_ok by (eapply empty_ok; eassumption). destruct xs; reflexivity.
  - destruct (s !! id) as [l|] eqn:E; [|exact I]. destruct (dlR_look _ _ _ _ Hs E) as (xs & E' & ->).
    same lay. erewrite bind_ok by (eapply iter_ok; eassumption). reflexivity.
  - destruct (s !! id) as [l|] eqn:E; [|exact I]. destruct (dlR_look _ _ _ _ Hs E) as (xs & E' & ->).
    same lay. erewrite bind_ok by (eapply dl_riter_ok; eassumption). reflexivity.
Qed.
Theorem dl_step_ok pol o s st : grants pol -> dlR pol s st -> magree (dlR pol) (ls_step true o s) (dl_step junk o st).
Proof. intros Hg H. apply (magree_or_no _ (fun s' => refuses pol (elements_total s'))); [intros s'; apply grants_refuses; exact Hg|apply dl_step_or; exact H]. Qed.
End DLL.

Lemma inv_init {A} d pol : sound pol -> inv d ∅ (@lst_init A pol).
Proof.
  intros Hpol. assert (He : forall r, dt (l_cells (@lst_init A pol)) r = None) by (intros r; unfold dt, lst_init; simpl; rewrite lookup_empty; reflexivity).
  constructor.
  - intros id xs E. rewrite lookup_empty in E. discriminate.
  - intros id xs a x E. rewrite lookup_empty in E. discriminate.
  - intros id xs E. rewrite lookup_empty in E. discriminate.
  - intros i j xs ys a E. rewrite lookup_empty in E. discriminate.
  - intros a. rewrite He. intros [? ?]. discriminate.
  - intros id. rewrite He, lookup_empty. split; intros [? ?]; discriminate.
  - intros id. simpl. rewrite !lookup_empty. reflexivity.
  - intros a. rewrite He. simpl. rewrite elem_of_empty. split; [intros [? ?]; discriminate|tauto].
  - exact Hpol.
  - exact I.
Qed.
Lemma dlR_init {A} pol : sound pol -> dlR pol ∅ (@lst_init A pol).
Proof. intros Hs. exists ∅. split; [rewrite fmap_empty; reflexivity|]. split; [apply inv_init; exact Hs|reflexivity]. Qed.

Theorem dl_history_or : forall (A : Type) (junk : A) (pol : policy) (ops : list (lop A)), sound pol ->
  match srun (ls_step true) ops ∅ with
  | SVal (rs, s) =>
      (exists w, mrun (dl_step junk) ops (lst_init pol) = Ok (rs, w) /\ nodes_allocated w = elements_total s) \/
      (mrun (dl_step junk) ops (lst_init pol) = Abort /\
       exists ops1 ops2 rs1 s1, ops = ops1 ++ ops2 /\ srun (ls_step true) ops1 ∅ = SVal (rs1, s1) /\ refuses pol (elements_total s1))
  | SAbort => mrun (dl_step junk) ops (lst_init pol) = Abort
  | SUnspec => True
  end.
Proof.
  intros A junk pol ops Hs.
  pose proof (mrun_agree_or (dl_step junk) (ls_step true) (dlR pol) (fun s => refuses pol (elements_total s)) (fun o s w => dl_step_or junk pol o s w) ops ∅ (lst_init pol) (dlR_init pol Hs)) as Ha.
  destruct (srun (ls_step true) ops ∅) as [[rs s]| |]; [|exact Ha|exact I].
  destruct Ha as [(w & E & lay & -> & Hi & _)|Ha]; [left; exists w|right; exact Ha]. split; [exact E|]. eapply nodes_exact. exact Hi.
Qed.
Theorem dl_history : forall (A : Type) (junk : A) (pol : policy) (ops : list (lop A)), sound pol -> grants pol ->
  match srun (ls_step true) ops ∅ with
  | SVal (rs, s) => exists w, mrun (dl_step junk) ops (lst_init pol) = Ok (rs, w) /\ nodes_allocated w = elements_total s
  | SAbort => mrun (dl_step junk) ops (lst_init pol) = Abort
  | SUnspec => True
  end.
Proof.
  intros A junk pol ops Hs Hg. pose proof (dl_history_or A junk pol ops Hs) as Ha.
  destruct (srun (ls_step true) ops ∅) as [[rs s]| |]; [|exact Ha|exact I].
  destruct Ha as [Ha|(_ & ops1 & ops2 & rs1 & s1 & _ & _ & Hr)]; [exact Ha|]. destruct (grants_refuses _ _ Hg Hr).
Qed.
