(** Proofs about the linked lists. *)
From Verif Require Import Base VectorModel VectorSpec Adapter Hist ListModel ListSpec.

Section Fields.
Context {A : Type}.
Implicit Types (C : gmap ptr (cell A)) (st : lst A) (p q r : ptr).

Definition nx C p : option ptr := C !! p ≫= c_next.
Definition pv C p : option ptr := C !! p ≫= c_prev.
Definition dt C p : option A := c_dat <$> C !! p.
Definition set_cells C st : lst A := LSt C (l_al st) (l_size st) (l_tail st).

Lemma set_cells_id st : set_cells (l_cells st) st = st.
Proof. destruct st; reflexivity. Qed.

Lemma dt_some C p a : dt C p = Some a -> exists c, C !! p = Some c /\ c_dat c = a.
Proof. unfold dt. destruct (C !! p) as [c|]; simpl; intros H; [injection H as <-; eauto|discriminate]. Qed.
Lemma nx_some C p q : nx C p = Some q -> exists c, C !! p = Some c /\ c_next c = Some q.
Proof. unfold nx. destruct (C !! p) as [c|]; simpl; intros H; [eauto|discriminate]. Qed.
Lemma pv_some C p q : pv C p = Some q -> exists c, C !! p = Some c /\ c_prev c = Some q.
Proof. unfold pv. destruct (C !! p) as [c|]; simpl; intros H; [eauto|discriminate]. Qed.
Lemma nx_live C p q : nx C p = Some q -> is_Some (dt C p).
Proof. intros (c & E & _)%nx_some. unfold dt. rewrite E. eauto. Qed.

Lemma ld_next_ok st p : is_Some (dt (l_cells st) p) -> ld_next p st = Ok (nx (l_cells st) p, st).
Proof. intros [a (c & E & _)%dt_some]. unfold ld_next, ld, bind, ret, nx. rewrite E. reflexivity. Qed.
Lemma ld_next_ok' st p q : nx (l_cells st) p = Some q -> ld_next p st = Ok (Some q, st).
Proof. intros H. rewrite ld_next_ok; [rewrite H; reflexivity|]. eauto using nx_live. Qed.
Lemma ld_prev_ok' st p q : pv (l_cells st) p = Some q -> ld_prev p st = Ok (Some q, st).
Proof. intros (c & E & H)%pv_some. unfold ld_prev, ld, bind, ret. rewrite E, H. reflexivity. Qed.
Lemma ld_dat_ok st p a : dt (l_cells st) p = Some a -> ld_dat p st = Ok (a, st).
Proof. intros (c & E & H)%dt_some. unfold ld_dat, ld, bind, ret. rewrite E, H. reflexivity. Qed.

Lemma st_next_ok st p (q : option ptr) : is_Some (dt (l_cells st) p) -> exists C',
  st_next p q st = Ok (tt, set_cells C' st) /\
  (forall r, nx C' r = if decide (r = p) then q else nx (l_cells st) r) /\
  (forall r, pv C' r = pv (l_cells st) r) /\ (forall r, dt C' r = dt (l_cells st) r).
Proof.
  intros [a (c & E & _)%dt_some]. unfold st_next, stc, ld, bind. rewrite E, E. eexists. split; [reflexivity|].
  unfold nx, pv, dt. split; [|split]; intros r; (destruct (decide (r = p)) as [->|Hn]; [rewrite lookup_insert, ?E; reflexivity|rewrite lookup_insert_ne by congruence; reflexivity]).
Qed.
Lemma st_prev_ok st p (q : option ptr) : is_Some (dt (l_cells st) p) -> exists C',
  st_prev p q st = Ok (tt, set_cells C' st) /\
  (forall r, nx C' r = nx (l_cells st) r) /\
  (forall r, pv C' r = if decide (r = p) then q else pv (l_cells st) r) /\ (forall r, dt C' r = dt (l_cells st) r).
Proof.
  intros [a (c & E & _)%dt_some]. unfold st_prev, stc, ld, bind. rewrite E, E. eexists. split; [reflexivity|].
  unfold nx, pv, dt. split; [|split]; intros r; (destruct (decide (r = p)) as [->|Hn]; [rewrite lookup_insert, ?E; reflexivity|rewrite lookup_insert_ne by congruence; reflexivity]).
Qed.
Lemma st_dat_ok st p b : is_Some (dt (l_cells st) p) -> exists C',
  st_dat p b st = Ok (tt, set_cells C' st) /\
  (forall r, nx C' r = nx (l_cells st) r) /\
  (forall r, pv C' r = pv (l_cells st) r) /\ (forall r, dt C' r = if decide (r = p) then Some b else dt (l_cells st) r).
Proof.
  intros [a (c & E & _)%dt_some]. unfold st_dat, stc, ld, bind. rewrite E, E. eexists. split; [reflexivity|].
  unfold nx, pv, dt. split; [|split]; intros r; (destruct (decide (r = p)) as [->|Hn]; [rewrite lookup_insert, ?E; reflexivity|rewrite lookup_insert_ne by congruence; reflexivity]).
Qed.

Context (d : bool).

Lemma link_init_ok st p : is_Some (dt (l_cells st) p) -> exists C',
  link_init d p st = Ok (tt, set_cells C' st) /\
  (forall r, nx C' r = if decide (r = p) then Some p else nx (l_cells st) r) /\
  (d = true -> forall r, pv C' r = if decide (r = p) then Some p else pv (l_cells st) r) /\
  (forall r, dt C' r = dt (l_cells st) r).
Proof.
  intros H. unfold link_init. destruct d.
  - unfold dlink_init. destruct (st_prev_ok st p (Some p) H) as (C1 & E1 & N1 & P1 & D1).
    rewrite (bind_ok _ _ _ _ _ E1).
    destruct (st_next_ok (set_cells C1 st) p (Some p)) as (C2 & E2 & N2 & P2 & D2); [simpl; rewrite D1; exact H|].
    exists C2. split; [exact E2|]. simpl in *. split; [|split; [intros _|]]; intros r.
    + rewrite N2, N1. reflexivity.
    + rewrite P2, P1. reflexivity.
    + rewrite D2, D1. reflexivity.
  - unfold slink_init. destruct (st_next_ok st p (Some p) H) as (C1 & E1 & N1 & P1 & D1).
    exists C1. split; [exact E1|]. split; [exact N1|]. split; [discriminate|exact D1].
Qed.

Lemma link_add_ok st p n q : nx (l_cells st) p = Some q -> is_Some (dt (l_cells st) q) -> is_Some (dt (l_cells st) n) ->
  n <> p -> n <> q -> exists C',
  link_add d p n st = Ok (tt, set_cells C' st) /\
  (forall r, nx C' r = if decide (r = p) then Some n else if decide (r = n) then Some q else nx (l_cells st) r) /\
  (d = true -> forall r, pv C' r = if decide (r = q) then Some n else if decide (r = n) then Some p else pv (l_cells st) r) /\
  (forall r, dt C' r = dt (l_cells st) r).
Proof.
  intros Hp Hq Hn Np Nq. pose proof (nx_live _ _ _ Hp) as Hlp. unfold link_add. destruct d.
  - unfold dlink_add. rewrite (bind_ok _ _ _ _ _ (ld_next_ok' st p q Hp)).
    destruct (st_next_ok st n (Some q) Hn) as (C1 & E1 & N1 & P1 & D1). rewrite (bind_ok _ _ _ _ _ E1).
    destruct (st_prev_ok (set_cells C1 st) n (Some p)) as (C2 & E2 & N2 & P2 & D2); [simpl; rewrite D1; exact Hn|].
    simpl in *. rewrite (bind_ok _ _ _ _ _ E2).
    assert (Hp2 : nx C2 p = Some q) by (rewrite N2, N1; rewrite decide_False by congruence; exact Hp).
    rewrite (bind_ok _ _ _ _ _ (ld_next_ok' (set_cells C2 st) p q Hp2)).
    destruct (st_prev_ok (set_cells C2 st) q (Some n)) as (C3 & E3 & N3 & P3 & D3); [simpl; rewrite D2, D1; exact Hq|].
    simpl in *. rewrite (bind_ok _ _ _ _ _ E3).
    destruct (st_next_ok (set_cells C3 st) p (Some n)) as (C4 & E4 & N4 & P4 & D4); [simpl; rewrite D3, D2, D1; exact Hlp|].
    simpl in *. exists C4. split; [exact E4|]. split; [|split; [intros _|]]; intros r.
    + rewrite N4, N3, N2, N1. reflexivity.
    + rewrite P4, P3, P2, P1. reflexivity.
    + rewrite D4, D3, D2, D1. reflexivity.
  - unfold slink_add. rewrite (bind_ok _ _ _ _ _ (ld_next_ok' st p q Hp)).
    destruct (st_next_ok st n (Some q) Hn) as (C1 & E1 & N1 & P1 & D1). rewrite (bind_ok _ _ _ _ _ E1).
    destruct (st_next_ok (set_cells C1 st) p (Some n)) as (C4 & E4 & N4 & P4 & D4); [simpl; rewrite D1; exact Hlp|].
    simpl in *. exists C4. split; [exact E4|]. split; [|split; [discriminate|]]; intros r.
    + rewrite N4, N1. reflexivity.
    + rewrite D4, D1. reflexivity.
Qed.

Lemma link_del_ok st p n q : nx (l_cells st) n = Some q -> is_Some (dt (l_cells st) p) -> is_Some (dt (l_cells st) q) ->
  n <> p -> n <> q -> exists C',
  link_del d p n st = Ok (tt, set_cells C' st) /\
  (forall r, nx C' r = if decide (r = n) then None else if decide (r = p) then Some q else nx (l_cells st) r) /\
  (d = true -> forall r, pv C' r = if decide (r = n) then None else if decide (r = q) then Some p else pv (l_cells st) r) /\
  (forall r, dt C' r = dt (l_cells st) r).
Proof.
  intros Hn Hp Hq Np Nq. pose proof (nx_live _ _ _ Hn) as Hln. unfold link_del. destruct d.
  - unfold dlink_del. rewrite (bind_ok _ _ _ _ _ (ld_next_ok' st n q Hn)).
    destruct (st_next_ok st p (Some q) Hp) as (C1 & E1 & N1 & P1 & D1). rewrite (bind_ok _ _ _ _ _ E1).
    assert (Hn2 : nx C1 n = Some q) by (rewrite N1; rewrite decide_False by congruence; exact Hn).
    rewrite (bind_ok _ _ _ _ _ (ld_next_ok' (set_cells C1 st) n q Hn2)).
    destruct (st_prev_ok (set_cells C1 st) q (Some p)) as (C2 & E2 & N2 & P2 & D2); [simpl; rewrite D1; exact Hq|].
    simpl in *. rewrite (bind_ok _ _ _ _ _ E2).
    destruct (st_next_ok (set_cells C2 st) n None) as (C3 & E3 & N3 & P3 & D3); [simpl; rewrite D2, D1; exact Hln|].
    simpl in *. rewrite (bind_ok _ _ _ _ _ E3).
    destruct (st_prev_ok (set_cells C3 st) n None) as (C4 & E4 & N4 & P4 & D4); [simpl; rewrite D3, D2, D1; exact Hln|].
    simpl in *. exists C4. split; [exact E4|]. split; [|split; [intros _|]]; intros r.
    + rewrite N4, N3, N2, N1. reflexivity.
    + rewrite P4, P3, P2, P1. reflexivity.
    + rewrite D4, D3, D2, D1. reflexivity.
  - unfold slink_del. rewrite (bind_ok _ _ _ _ _ (ld_next_ok' st n q Hn)).
    destruct (st_next_ok st p (Some q) Hp) as (C1 & E1 & N1 & P1 & D1). rewrite (bind_ok _ _ _ _ _ E1).
    destruct (st_next_ok (set_cells C1 st) n None) as (C4 & E4 & N4 & P4 & D4); [simpl; rewrite D1; exact Hln|].
    simpl in *. exists C4. split; [exact E4|]. split; [|split; [discriminate|]]; intros r.
    + rewrite N4, N1. reflexivity.
    + rewrite D4, D1. reflexivity.
Qed.

(** Paths: each member is linked to the one behind it. *)
Definition link (f g : ptr -> option ptr) p q : Prop := f p = Some q /\ (d = true -> g q = Some p).
Fixpoint path (f g : ptr -> option ptr) (l : list ptr) : Prop :=
  match l with
  | p :: ((q :: _) as t) => link f g p q /\ path f g t
  | _ => True
  end.

Lemma path_cons f g p q t : path f g (p :: q :: t) <-> link f g p q /\ path f g (q :: t).
Proof. reflexivity. Qed.
Lemma path_app f g us p vs : path f g (us ++ p :: vs) <-> path f g (us ++ [p]) /\ path f g (p :: vs).
Proof.
  induction us as [|u us IH]; [simpl; tauto|]. destruct us as [|u' us].
  - simpl app. rewrite !path_cons. simpl. tauto.
  - simpl app in *. rewrite !path_cons. rewrite IH. tauto.
Qed.
Lemma path_frame f g f' g' l : path f g l ->
  (forall r, r ∈ removelast l -> f' r = f r) -> (d = true -> forall r, r ∈ tail l -> g' r = g r) -> path f' g' l.
Proof.
  induction l as [|p [|q t] IH]; intros H Hf Hg; [exact I|exact I|]. destruct H as [[H1 H2] H3].
  split.
  - split; [rewrite Hf by (simpl; left); exact H1|]. intros Hd. rewrite (Hg Hd) by (simpl; left). auto.
  - apply IH; [exact H3| |].
    + intros r Hr. apply Hf. right. exact Hr.
    + intros Hd r Hr. apply (Hg Hd). simpl in *. right. exact Hr.
Qed.

Lemma removelast_split (us : list ptr) p q vs : removelast (us ++ p :: q :: vs) = us ++ p :: removelast (q :: vs).
Proof. rewrite removelast_app by discriminate. reflexivity. Qed.
Lemma tail_split (us : list ptr) p ws : tail (us ++ p :: ws) = tail (us ++ [p]) ++ ws.
Proof. destruct us as [|u us]; simpl; [reflexivity|]. rewrite <- app_assoc. reflexivity. Qed.

Lemma path_insert f g f' g' us p n q vs :
  NoDup (removelast (us ++ p :: q :: vs)) -> NoDup (tail (us ++ p :: q :: vs)) ->
  n ∉ us ++ p :: q :: vs ->
  path f g (us ++ p :: q :: vs) ->
  (forall r, f' r = if decide (r = p) then Some n else if decide (r = n) then Some q else f r) ->
  (d = true -> forall r, g' r = if decide (r = q) then Some n else if decide (r = n) then Some p else g r) ->
  path f' g' (us ++ p :: n :: q :: vs).
Proof.
  intros N1 N2 Hn H F G. rewrite removelast_split in N1. rewrite tail_split in N2.
  apply NoDup_app in N1 as (_ & N1a & N1b). apply NoDup_cons in N1b as [N1c _].
  apply NoDup_app in N2 as (_ & N2a & N2b). apply NoDup_cons in N2b as [N2c _].
  assert (Hp : p ∉ us). { intros Hi. apply (N1a p Hi). left. }
  assert (Hq : q ∉ tail (us ++ [p])). { intros Hi. apply (N2a q Hi). left. }
  rewrite not_elem_of_app, !not_elem_of_cons in Hn. destruct Hn as (Hn1 & Hn2 & Hn3 & Hn4).
  apply path_app in H as [H1 [H2 H3]%path_cons]. apply path_app. split.
  - apply (path_frame f g); [exact H1| |].
    + intros r Hr. rewrite removelast_last in Hr. rewrite F. rewrite !decide_False by (intros ->; contradiction). reflexivity.
    + intros Hd r Hr. rewrite (G Hd). rewrite (decide_False (P := r = q)) by (intros ->; contradiction).
      rewrite decide_False; [reflexivity|]. intros ->.
      destruct us; simpl in Hr; [inversion Hr|]. apply elem_of_app in Hr as [Hr|Hr%elem_of_list_singleton]; [|contradiction].
      apply Hn1. right. exact Hr.
  - apply path_cons. split; [split; [rewrite F, decide_True by reflexivity; reflexivity|]|].
    { intros Hd. rewrite (G Hd), decide_False, decide_True by congruence. reflexivity. }
    apply path_cons. split; [split; [rewrite F, decide_False, decide_True by congruence; reflexivity|]|].
    { intros Hd. rewrite (G Hd), decide_True by congruence. reflexivity. }
    apply (path_frame f g); [exact H3| |].
    + intros r Hr. rewrite F. rewrite !decide_False; [reflexivity| |intros ->; contradiction].
      intros ->. destruct vs as [|v vs]; [inversion Hr|]. change (n ∈ q :: removelast (v :: vs)) in Hr.
      apply elem_of_cons in Hr as [?|Hr]; [congruence|]. apply Hn4. 
      clear -Hr. revert Hr. generalize (v :: vs). intros l. induction l as [|a l IH]; simpl; [auto|].
      destruct l; [intros H; inversion H|]. intros [->|H]%elem_of_cons; [left|right; auto].
    + intros Hd r Hr. simpl in Hr. rewrite (G Hd). rewrite !decide_False by (intros ->; contradiction). reflexivity.
Qed.

Lemma path_remove f g f' g' us p n q vs :
  NoDup (removelast (us ++ p :: n :: q :: vs)) -> NoDup (tail (us ++ p :: n :: q :: vs)) ->
  path f g (us ++ p :: n :: q :: vs) ->
  (forall r, r <> n -> f' r = if decide (r = p) then Some q else f r) ->
  (d = true -> forall r, r <> n -> g' r = if decide (r = q) then Some p else g r) ->
  path f' g' (us ++ p :: q :: vs).
Proof.
  intros N1 N2 H F G. rewrite removelast_split in N1. rewrite tail_split in N2.
  change (removelast (n :: q :: vs)) with (n :: removelast (q :: vs)) in N1.
  apply NoDup_app in N1 as (_ & N1a & N1b). apply NoDup_cons in N1b as [N1c N1d]. apply NoDup_cons in N1d as [N1e _].
  apply NoDup_app in N2 as (_ & N2a & N2b). apply NoDup_cons in N2b as [N2c N2d]. apply NoDup_cons in N2d as [N2e _].
  assert (Hpn : p <> n) by (intros ->; apply N1c; left).
  assert (Hqn : q <> n) by (intros ->; apply N2c; left).
  apply path_app in H as [H1 [H2 [H3 H4]%path_cons]%path_cons]. apply path_app. split.
  - apply (path_frame f g); [exact H1| |].
    + intros r Hr. rewrite removelast_last in Hr. rewrite F; [rewrite decide_False; [reflexivity|]|]; intros ->; apply (N1a _ Hr); [left|right; left].
    + intros Hd r Hr. rewrite (G Hd); [rewrite decide_False; [reflexivity|]|]; intros ->; apply (N2a _ Hr); [right; left|left].
  - apply path_cons. split; [split; [rewrite F, decide_True by congruence; reflexivity|]|].
    { intros Hd. rewrite (G Hd), decide_True by congruence. reflexivity. }
    apply (path_frame f g); [exact H4| |].
    + intros r Hr. rewrite F; [rewrite decide_False; [reflexivity|]|]; intros ->; [apply N1c; right; exact Hr|contradiction].
    + intros Hd r Hr. simpl in Hr. rewrite (G Hd); [rewrite decide_False; [reflexivity|]|]; intros ->; [contradiction|apply N2c; right; exact Hr].
Qed.

(** Changing who the head is: the head of a ring replaced by another node. *)
Lemma path_rehead f g f' g' h h' ps : ps <> [] -> NoDup (h :: ps) -> NoDup (h' :: ps) ->
  path f g (h :: ps ++ [h]) ->
  f' h' = f h -> (d = true -> g' h' = g h) ->
  (forall r, r ∈ ps -> Some r <> last ps -> f' r = f r) -> (forall r, last ps = Some r -> f' r = Some h') ->
  (d = true -> forall r, r ∈ ps -> Some r <> head ps -> g' r = g r) -> (d = true -> forall r, head ps = Some r -> g' r = Some h') ->
  path f' g' (h' :: ps ++ [h']).
Proof.
  intros Hne N1 N2 H F0 G0 F1 F2 G1 G2. destruct ps as [|a ps]; [contradiction|]. simpl app in *.
  apply NoDup_cons in N1 as [N1 N3]. apply NoDup_cons in N2 as [N2 N4].
  apply path_cons in H as [[H1 H2] H3]. apply path_cons. split.
  { split; [congruence|]. intros Hd. apply (G2 Hd). reflexivity. }
  destruct (exists_last (l := a :: ps)) as (us & b & E); [discriminate|].
  assert (Hb : last (a :: ps) = Some b) by (rewrite E, last_snoc; reflexivity).
  change (a :: ps ++ [h]) with ((a :: ps) ++ [h]) in H3. change (a :: ps ++ [h']) with ((a :: ps) ++ [h']).
  rewrite E in H3 |- *. rewrite <- app_assoc in H3 |- *. simpl app in *.
  apply path_app in H3 as [H3 H4]. apply path_app. destruct H4 as [[H4 H5] _]. split.
  - apply (path_frame f g); [exact H3| |].
    + intros r Hr. rewrite removelast_last in Hr. apply F1; [rewrite E; apply elem_of_app; auto|].
      rewrite Hb. intros [= ->]. rewrite E in N3. apply NoDup_app in N3 as (_ & N3 & _). apply (N3 _ Hr). left.
    + intros Hd r Hr. rewrite <- E in Hr. simpl in Hr. apply (G1 Hd); [right; exact Hr|]. simpl. intros [= ->].
      apply NoDup_cons in N3 as [N3 _]. contradiction.
  - split; [|exact I]. split; [apply F2; exact Hb|]. intros Hd. rewrite (G0 Hd). apply (H5 Hd).
Qed.

End Fields.
