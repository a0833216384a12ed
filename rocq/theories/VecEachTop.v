(** What particular callbacks do to for_each over a vector. *)
From Verif Require Import Base VectorModel VectorSpec VectorProofs VecProg VectorWorld VecIterModel VecIterSpec Hist VecIterProofs VecIter VecEachModel VecEachSpec VecEachProofs.

Section Top.
Context {A : Type} (triv : bool) (eqb : A -> A -> bool).
Notation state := (lworld A * gmap nat pos)%type.
Implicit Types (s : state) (l L : list A).

(** A round at an element. *)
Lemma round {C} fuel e it x (cb : C -> vclient A C) c s id i n L cap a :
  snd s !! it = Some (PAt id i) -> snd s !! e = Some (PAt id n) -> i <> n -> fst s !! id = Some (LVec L cap) -> L !! i = Some a ->
  veach_spec triv eqb (S fuel) e it x cb c s =
  match vclient_spec triv eqb (cb c) (fst s, <[x := PAt id i]> (snd s)) with
  | Ok (c, s) =>
      match snd s !! it with
      | Some q => match pos_add (fst s) q 1 with Some q => veach_spec triv eqb fuel e it x cb c (fst s, <[it := q]> (snd s)) | None => UB end
      | None => UB
      end
  | Abort => Abort | UB => UB | Diverge => Diverge
  end.
Proof.
  intros Hi He Hne Hl Ha. cbn [veach_spec]. rewrite Hi, He. cbn [pos_diff]. rewrite Nat.eqb_refl.
  destruct (Z.eqb_spec (Z.of_nat i - Z.of_nat n) 0); [lia|]. cbn [pos_get]. rewrite Hl. cbn [l_seq]. rewrite nth_error_lookup, Ha. reflexivity.
Qed.
Lemma round_end {C} fuel e it x (cb : C -> vclient A C) c s id i :
  snd s !! it = Some (PAt id i) -> snd s !! e = Some (PAt id i) -> veach_spec triv eqb fuel e it x cb c s = Ok (c, s).
Proof.
  intros Hi He. destruct fuel; cbn [veach_spec]; rewrite Hi, He; cbn [pos_diff]; rewrite Nat.eqb_refl;
  (destruct (Z.eqb_spec (Z.of_nat i - Z.of_nat i) 0); [reflexivity|lia]).
Qed.
Lemma round_ub {C} fuel e it x (cb : C -> vclient A C) c s id i n L cap :
  snd s !! it = Some (PAt id i) -> snd s !! e = Some (PAt id n) -> i <> n -> fst s !! id = Some (LVec L cap) -> L !! i = None ->
  veach_spec triv eqb (S fuel) e it x cb c s = UB.
Proof.
  intros Hi He Hne Hl Ha. cbn [veach_spec]. rewrite Hi, He. cbn [pos_diff]. rewrite Nat.eqb_refl.
  destruct (Z.eqb_spec (Z.of_nat i - Z.of_nat n) 0); [lia|]. cbn [pos_get]. rewrite Hl. cbn [l_seq]. rewrite nth_error_lookup, Ha. reflexivity.
Qed.
Lemma read_ok {C} x (c : C) k s id i L cap a : snd s !! x = Some (PAt id i) -> fst s !! id = Some (LVec L cap) -> L !! i = Some a ->
  vclient_spec triv eqb (reading x c k) s = vclient_spec triv eqb (k a) s.
Proof.
  intros Hx Hl Ha. unfold reading. cbn [vclient_spec ys_step]. unfold with_var. rewrite Hx. cbn [pos_get]. rewrite Hl. cbn [l_seq]. rewrite nth_error_lookup, Ha. reflexivity.
Qed.
Lemma next_at (S : lworld A) id i L cap : S !! id = Some (LVec L cap) -> i < cap -> pos_add S (PAt id i) 1 = Some (PAt id (i + 1)).
Proof.
  intros Hl Hi. cbn [pos_add]. rewrite Hl. cbn [l_cap]. destruct (Z.leb_spec 0 (Z.of_nat i + 1)); [|lia]. destruct (Z.leb_spec (Z.of_nat i + 1) (Z.of_nat cap)); [|lia].
  cbn [andb]. do 2 f_equal. lia.
Qed.

(** Appending. *)
Lemma append_step s id a L cap : fst s !! id = Some (LVec L cap) ->
  ys_step triv eqb (YVec (OPush id a)) s = Ok (YOut RUnit, (<[id := LVec (L ++ [a]) (cap_push (length L) cap)]> (fst s), follow_pos (OPush id a) (fst s) <$> snd s)).
Proof. intros Hl. cbn [ys_step lv_step]. unfold lwith. rewrite Hl. reflexivity. Qed.
Lemma follow_room (S : lworld A) (V : gmap nat pos) id a L cap : S !! id = Some (LVec L cap) -> length L < cap -> follow_pos (OPush id a) S <$> V = V.
Proof.
  intros Hl Hc. apply map_eq. intros k. rewrite lookup_fmap. destruct (V !! k) as [q|]; [|reflexivity]. cbn [fmap option_fmap option_map]. f_equal.
  destruct q as [id' i| |]; [|reflexivity..]. cbn [follow_pos follow]. unfold of_vec, push_replaces. rewrite Hl. cbn [l_seq l_cap].
  destruct (Nat.eqb_spec (length L) cap); [lia|]. rewrite andb_false_r. reflexivity.
Qed.
Lemma cap_room n c : n < c -> cap_push n c = c.
Proof. intros H. unfold cap_push. destruct (Nat.eqb_spec n c); [lia|reflexivity]. Qed.
Lemma appends_room {C} id xs (c : C) : forall L cap s, fst s !! id = Some (LVec L cap) -> length L + length xs <= cap ->
  exists S', vclient_spec triv eqb (appends id xs c) s = Ok (c, (S', snd s)) /\ S' !! id = Some (LVec (L ++ xs) cap).
Proof.
  induction xs as [|a xs IH]; intros L cap s Hl Hc; cbn [appends vclient_spec].
  - exists (fst s). rewrite app_nil_r. destruct s; auto.
  - cbn [length] in Hc. rewrite (append_step _ _ _ _ _ Hl), (follow_room _ _ _ _ _ _ Hl), cap_room by lia.
    destruct (IH (L ++ [a]) cap (<[id := LVec (L ++ [a]) cap]> (fst s), snd s)) as (S' & E & H').
    { apply lookup_insert. } { rewrite app_length. cbn. lia. }
    exists S'. rewrite E. rewrite <- app_assoc in H'. auto.
Qed.
Lemma appends_gone {C} id it xs (c : C) : forall (r0 : lvec A) s, fst s !! id = Some r0 -> snd s !! it = Some PGone ->
  exists s', vclient_spec triv eqb (appends id xs c) s = Ok (c, s') /\ snd s' !! it = Some PGone.
Proof.
  induction xs as [|a xs IH]; intros [L cap] s Hl Hi; cbn [appends vclient_spec]; [eauto|].
  rewrite (append_step _ _ _ _ _ Hl). eapply IH; cbn [fst snd].
  - apply lookup_insert.
  - rewrite lookup_fmap, Hi. reflexivity.
Qed.
Lemma appends_over {C} id it i xs (c : C) : forall L cap s, fst s !! id = Some (LVec L cap) -> length L <= cap -> cap < length L + length xs -> snd s !! it = Some (PAt id i) ->
  exists s', vclient_spec triv eqb (appends id xs c) s = Ok (c, s') /\ snd s' !! it = Some PGone.
Proof.
  induction xs as [|a xs IH]; intros L cap s Hl Hc Ho Hi; cbn [appends vclient_spec length] in *; [lia|].
  rewrite (append_step _ _ _ _ _ Hl). destruct (Nat.eq_dec (length L) cap) as [E|E].
  - eapply appends_gone; cbn [fst snd].
    + apply lookup_insert.
    + rewrite lookup_fmap, Hi. cbn [fmap option_fmap option_map follow_pos follow]. unfold of_vec, push_replaces. rewrite Hl. cbn [l_seq l_cap].
      rewrite E, !Nat.eqb_refl. reflexivity.
  - rewrite (follow_room _ _ _ _ _ _ Hl), cap_room by lia. eapply IH; cbn [fst snd].
    + apply lookup_insert.
    + rewrite app_length. cbn. lia.
    + rewrite app_length. cbn. lia.
    + exact Hi.
Qed.

Lemma look_mid (pre rest ext : list A) a : ((pre ++ a :: rest) ++ ext) !! length pre = Some a.
Proof. rewrite <- app_assoc. rewrite lookup_app_r by lia. rewrite Nat.sub_diag. reflexivity. Qed.

Lemma growing_loop id e it x kids (Hx : x <> it) (Hx' : x <> e) (Hi : it <> e) cap : forall rest pre ext s fuel seen, length rest <= fuel ->
  fst s !! id = Some (LVec ((pre ++ rest) ++ ext) cap) -> length ((pre ++ rest) ++ ext) <= cap ->
  snd s !! it = Some (PAt id (length pre)) -> snd s !! e = Some (PAt id (length (pre ++ rest))) ->
  if length ((pre ++ rest) ++ ext) + length (flat_map kids rest) <=? cap
  then exists s', veach_spec triv eqb fuel e it x (growing x id kids) seen s = Ok (seen ++ rest, s') /\ fst s' !! id = Some (LVec ((pre ++ rest) ++ ext ++ flat_map kids rest) cap)
  else veach_spec triv eqb fuel e it x (growing x id kids) seen s = UB.
Proof.
  induction rest as [|a rest IH]; intros pre ext s fuel seen Hf Hl Hc Hit He.
  - cbn [flat_map length]. destruct (Nat.leb_spec (length ((pre ++ []) ++ ext) + 0) cap); [|lia]. rewrite !app_nil_r in *. exists s. rewrite (round_end _ _ _ _ _ _ _ _ _ Hit He). auto.
  - destruct fuel as [|f]; [cbn in Hf; lia|]. cbn [length] in Hf.
    assert (length pre <> length (pre ++ a :: rest)) as Hne by (rewrite app_length; cbn; lia).
    rewrite (round _ _ _ _ _ _ _ _ _ _ _ _ _ Hit He Hne Hl (look_mid _ _ _ _)). unfold growing at 1 3.
    erewrite !read_ok by first [cbn [snd]; apply lookup_insert | exact Hl | apply look_mid].
    assert (length pre < cap) as Hp by (rewrite !app_length in Hc; cbn [length] in Hc; lia). cbn [flat_map].
    destruct (le_lt_dec (length ((pre ++ a :: rest) ++ ext) + length (kids a)) cap) as [Hk|Hk].
    + destruct (appends_room id (kids a) (seen ++ [a]) _ _ (fst s, <[x := PAt id (length pre)]> (snd s)) Hl Hk) as (S' & E & HS). rewrite E. cbn [fst snd].
      rewrite lookup_insert_ne, Hit by exact Hx. rewrite (next_at _ _ _ _ _ HS Hp).
      specialize (IH (pre ++ [a]) (ext ++ kids a) (S', <[it := PAt id (length pre + 1)]> (<[x := PAt id (length pre)]> (snd s))) f (seen ++ [a]) ltac:(lia)).
      rewrite <- !app_assoc in IH. cbn [app fst snd] in IH. rewrite <- !app_assoc in HS. cbn [app] in HS. specialize (IH HS).
      rewrite !app_length in *. cbn [length] in *. rewrite !app_length in *. specialize (IH ltac:(lia)).
      rewrite lookup_insert in IH. specialize (IH eq_refl). rewrite !lookup_insert_ne in IH by congruence. specialize (IH He).
      match type of IH with context [?m <=? cap] => destruct (Nat.leb_spec m cap) end; match goal with |- context [?m <=? cap] => destruct (Nat.leb_spec m cap) end; try lia; [|exact IH].
      destruct IH as (s' & E' & H'). exists s'. rewrite <- !app_assoc. cbn [app]. auto.
    + match goal with |- context [?m <=? cap] => destruct (Nat.leb_spec m cap) as [Hm|_]; [rewrite !app_length in Hm; rewrite !app_length in Hk; cbn [length] in *; lia|] end.
      destruct (appends_over id it (length pre) (kids a) (seen ++ [a]) _ _ (fst s, <[x := PAt id (length pre)]> (snd s)) Hl Hc Hk) as (s' & E & Hg).
      { cbn [snd]. rewrite lookup_insert_ne by exact Hx. exact Hit. }
      rewrite E, Hg. reflexivity.
Qed.

(** Where the loop starts. *)
Lemma start_empty {C} fuel e it x (cb : C -> vclient A C) c cap id (S : lworld A) (V : gmap nat pos) : it <> e ->
  veach_spec triv eqb fuel e it x cb c (S, <[it := pos_of (LVec (@nil A) cap) id 0]> (<[e := pos_of (LVec (@nil A) cap) id 0]> V)) =
  Ok (c, (S, <[it := pos_of (LVec (@nil A) cap) id 0]> (<[e := pos_of (LVec (@nil A) cap) id 0]> V))).
Proof.
  intros Hi. unfold pos_of. cbn [l_cap]. destruct (Nat.eqb cap 0).
  - destruct fuel; cbn [veach_spec snd]; rewrite lookup_insert, lookup_insert_ne, lookup_insert by congruence; reflexivity.
  - eapply round_end; cbn [snd]; [apply lookup_insert|rewrite lookup_insert_ne by congruence; apply lookup_insert].
Qed.
Lemma pos_of_at L cap id i : 0 < cap -> pos_of (LVec L cap) id i = PAt id i.
Proof. intros H. unfold pos_of. cbn [l_cap]. destruct (Nat.eqb_spec cap 0); [lia|reflexivity]. Qed.
Lemma holds_cap w id v l rs ops : mrun (y_step triv eqb) ops y_init = Ok (rs, w) -> holds (fst w) id v l -> length l <= v_cap v.
Proof.
  intros Hr Hh. destruct (y_run_inv triv eqb _ _ _ Hr) as [s H]. pose proof (yinv_holds _ _ _ _ _ H Hh) as Hl.
  destruct (winv_obj _ _ _ _ (proj1 H) Hl) as (v' & Hv & Hrep & Hc). pose proof (vrep_cap _ _ _ Hrep) as Hk. cbn [l_seq l_cap] in *. lia.
Qed.
Lemma vsim_ok {X} (r : res (X * state)) c x s' : vsim r c -> r = Ok (x, s') -> exists w', c = Ok (x, w') /\ forall id, contents (fst w') id = l_seq <$> fst s' !! id.
Proof. intros H E. rewrite E in H. destruct H as (w' & -> & H). exists w'. split; [reflexivity|]. intros id. apply (winv_contents _ _ (proj1 H)). Qed.

Theorem veach_growing ops rs w id v l b e it x kids fuel : NoDup [b; e; it; x] ->
  mrun (y_step triv eqb) ops y_init = Ok (rs, w) -> holds (fst w) id v l -> length l <= fuel ->
  let run := (mrun (y_step triv eqb) [YBegin b id; YEnd e id] ;;; veach triv eqb fuel b e it x (growing x id kids) []) w in
  if length l + length (flat_map kids l) <=? v_cap v
  then exists w', run = Ok (l, w') /\ contents (fst w') id = Some (l ++ flat_map kids l)
  else run = UB.
Proof.
  intros Hn Hr Hh Hf. cbv zeta. assert (b <> e /\ it <> e /\ x <> it /\ x <> e) as (Hbe & Hie & Hxi & Hxe).
  { rewrite !NoDup_cons in Hn. set_solver. }
  pose proof (holds_cap _ _ _ _ _ _ Hr Hh) as Hc.
  destruct (veach_from triv eqb ops rs w id v l fuel b e it x (growing x id kids) [] Hr Hh Hbe) as (s & Hl & Hs).
  destruct l as [|a l].
  - cbn [flat_map length Nat.add Nat.leb] in *. rewrite start_empty in Hs by exact Hie.
    destruct (vsim_ok _ _ _ _ Hs eq_refl) as (w' & E & H). exists w'. split; [exact E|]. rewrite H. cbn [fst]. rewrite Hl. reflexivity.
  - rewrite !pos_of_at in Hs by (cbn in Hc; lia).
    pose proof (growing_loop id e it x kids Hxi Hxe Hie (v_cap v) (a :: l) [] [] (fst s, <[it := PAt id 0]> (<[e := PAt id (length (a :: l))]> (<[b := PAt id 0]> (snd s)))) fuel [] Hf) as G.
    rewrite app_nil_r in G. cbn [app fst snd] in G. specialize (G Hl Hc). rewrite lookup_insert in G. specialize (G eq_refl).
    rewrite lookup_insert_ne, lookup_insert in G by congruence. specialize (G eq_refl).
    destruct (_ <=? v_cap v).
    + destruct G as (s' & E & H'). rewrite E in Hs. destruct (vsim_ok _ _ _ _ Hs eq_refl) as (w' & Ew & H). exists w'. split; [exact Ew|]. rewrite H, H'. reflexivity.
    + rewrite G in Hs. exact Hs.
Qed.

(** The state the loop starts in, if there are elements. *)
Definition begun (S : lworld A) (V : gmap nat pos) b e it id n : state := (S, <[it := PAt id 0]> (<[e := PAt id n]> (<[b := PAt id 0]> V))).
Lemma begun_it S V b e it id n : snd (begun S V b e it id n) !! it = Some (PAt id 0).
Proof. apply lookup_insert. Qed.
Lemma begun_e S V b e it id n : it <> e -> snd (begun S V b e it id n) !! e = Some (PAt id n).
Proof. intros H. cbn [begun snd]. rewrite lookup_insert_ne by exact H. apply lookup_insert. Qed.
Lemma nonempty_from {C} ops rs w id v l fuel b e it x (cb : C -> vclient A C) c :
  mrun (y_step triv eqb) ops y_init = Ok (rs, w) -> holds (fst w) id v l -> b <> e -> l <> [] -> exists s,
  fst s !! id = Some (LVec l (v_cap v)) /\ length l <= v_cap v /\ (forall k, w_objs (fst w) !! k = None -> fst s !! k = None) /\
  vsim (veach_spec triv eqb fuel e it x cb c (begun (fst s) (snd s) b e it id (length l)))
       ((mrun (y_step triv eqb) [YBegin b id; YEnd e id] ;;; veach triv eqb fuel b e it x cb c) w).
Proof.
  intros Hr Hh Hbe Hne. pose proof (holds_cap _ _ _ _ _ _ Hr Hh) as Hc.
  destruct (y_run_inv triv eqb _ _ _ Hr) as [s H]. pose proof (yinv_holds _ _ _ _ _ H Hh) as Hl.
  exists s. split; [exact Hl|]. split; [exact Hc|]. split.
  { intros k Hk. pose proof (wi_rep _ _ (proj1 H) k) as Hd. rewrite Hk in Hd. destruct (fst s !! k); [contradiction|reflexivity]. }
  pose proof (mrun_ok triv eqb [YBegin b id; YEnd e id] s w H) as H1. cbn [ys_run ys_step] in H1. unfold lwith, setting in H1. rewrite Hl in H1. cbn [fst snd] in H1. rewrite Hl in H1. cbn [fst snd l_seq] in H1.
  destruct H1 as (w1 & E1 & H1). rewrite (bind_ok _ _ _ _ _ E1).
  pose proof (veach_top triv eqb fuel b e it x cb c _ w1 H1) as H2. cbn [fst snd] in H2. rewrite lookup_insert_ne, lookup_insert in H2 by congruence.
  rewrite !pos_of_at in H2 by (destruct l; [congruence|cbn in Hc; lia]). exact H2.
Qed.

(** Appending the element itself. *)
Lemma double_step s id x i a L cap : fst s !! id = Some (LVec L cap) -> snd s !! x = Some (PAt id i) -> L !! i = Some a -> length L <= cap ->
  ys_step triv eqb (YPush id x) s =
  if length L <? cap then Ok (YOut RUnit, (<[id := LVec (L ++ [a]) cap]> (fst s), snd s)) else UB.
Proof.
  intros Hl Hx Ha Hc. cbn [ys_step]. unfold lwith, with_var. rewrite Hl, Hx. cbn [pos_get]. rewrite Hl. cbn [l_seq l_cap]. rewrite nth_error_lookup, Ha. cbn [orub].
  rewrite Nat.eqb_refl. cbn [andb]. unfold push_replaces. cbn [l_seq l_cap].
  destruct (Nat.eqb_spec (length L) cap), (Nat.ltb_spec (length L) cap); try lia; [reflexivity|].
  rewrite (follow_room _ _ _ _ _ _ Hl), cap_room by lia. reflexivity.
Qed.
Lemma doubling_loop id e it x (Hx : x <> it) (Hx' : x <> e) (Hi : it <> e) cap : forall rest pre ext s fuel seen, length rest <= fuel ->
  fst s !! id = Some (LVec ((pre ++ rest) ++ ext) cap) -> length ((pre ++ rest) ++ ext) <= cap ->
  snd s !! it = Some (PAt id (length pre)) -> snd s !! e = Some (PAt id (length (pre ++ rest))) ->
  if length ((pre ++ rest) ++ ext) + length rest <=? cap
  then exists s', veach_spec triv eqb fuel e it x (doubling x id) seen s = Ok (seen ++ rest, s') /\ fst s' !! id = Some (LVec ((pre ++ rest) ++ ext ++ rest) cap)
  else veach_spec triv eqb fuel e it x (doubling x id) seen s = UB.
Proof.
  induction rest as [|a rest IH]; intros pre ext s fuel seen Hf Hl Hc Hit He.
  - cbn [length]. destruct (Nat.leb_spec (length ((pre ++ []) ++ ext) + 0) cap); [|lia]. rewrite !app_nil_r in *. exists s. rewrite (round_end _ _ _ _ _ _ _ _ _ Hit He). auto.
  - destruct fuel as [|f]; [cbn in Hf; lia|]. cbn [length] in Hf.
    assert (length pre <> length (pre ++ a :: rest)) as Hne by (rewrite app_length; cbn; lia).
    rewrite (round _ _ _ _ _ _ _ _ _ _ _ _ _ Hit He Hne Hl (look_mid _ _ _ _)). unfold doubling at 1 3.
    erewrite !read_ok by first [cbn [snd]; apply lookup_insert | exact Hl | apply look_mid]. cbn [vclient_spec].
    assert (length pre < cap) as Hp by (rewrite !app_length in Hc; cbn [length] in Hc; lia).
    rewrite (double_step (fst s, <[x := PAt id (length pre)]> (snd s)) id x (length pre) a _ cap Hl ltac:(apply lookup_insert) ltac:(apply look_mid) Hc).
    destruct (Nat.ltb_spec (length ((pre ++ a :: rest) ++ ext)) cap) as [Hk|Hk].
    + cbn [vclient_spec fst snd]. rewrite lookup_insert_ne, Hit by exact Hx. erewrite next_at by first [apply lookup_insert | exact Hp].
      specialize (IH (pre ++ [a]) (ext ++ [a]) (<[id := LVec (((pre ++ a :: rest) ++ ext) ++ [a]) cap]> (fst s), <[it := PAt id (length pre + 1)]> (<[x := PAt id (length pre)]> (snd s))) f (seen ++ [a]) ltac:(lia)).
      rewrite <- !app_assoc in IH. cbn [app fst snd] in IH. rewrite lookup_insert in IH. specialize (IH eq_refl).
      rewrite !app_length in *. cbn [length] in *. rewrite !app_length in *. cbn [length] in *. specialize (IH ltac:(lia)).
      rewrite lookup_insert in IH. specialize (IH eq_refl). rewrite !lookup_insert_ne in IH by congruence. specialize (IH He).
      rewrite <- !app_assoc. cbn [app].
      match type of IH with context [?m <=? cap] => destruct (Nat.leb_spec m cap) end; match goal with |- context [?m <=? cap] => destruct (Nat.leb_spec m cap) end; try lia; [|exact IH].
      destruct IH as (s' & E' & H'). exists s'. rewrite <- !app_assoc in *. cbn [app] in *. auto.
    + match goal with |- context [?m <=? cap] => destruct (Nat.leb_spec m cap) as [Hm|_]; [cbn [length] in *; lia|] end. reflexivity.
Qed.
Theorem veach_doubling ops rs w id v l b e it x fuel : NoDup [b; e; it; x] ->
  mrun (y_step triv eqb) ops y_init = Ok (rs, w) -> holds (fst w) id v l -> l <> [] -> length l <= fuel ->
  let run := (mrun (y_step triv eqb) [YBegin b id; YEnd e id] ;;; veach triv eqb fuel b e it x (doubling x id) []) w in
  if length l + length l <=? v_cap v
  then exists w', run = Ok (l, w') /\ contents (fst w') id = Some (l ++ l)
  else run = UB.
Proof.
  intros Hn Hr Hh Hne Hf. cbv zeta. assert (b <> e /\ it <> e /\ x <> it /\ x <> e) as (Hbe & Hie & Hxi & Hxe).
  { rewrite !NoDup_cons in Hn. set_solver. }
  destruct (nonempty_from ops rs w id v l fuel b e it x (doubling x id) [] Hr Hh Hbe Hne) as (s & Hl & Hc & _ & Hs).
  pose proof (doubling_loop id e it x Hxi Hxe Hie (v_cap v) l [] [] (begun (fst s) (snd s) b e it id (length l)) fuel [] Hf) as G.
  rewrite app_nil_r in G. cbn [app] in G. specialize (G Hl Hc (begun_it _ _ _ _ _ _ _) (begun_e _ _ _ _ _ _ _ Hie)).
  destruct (_ <=? v_cap v).
  - destruct G as (s' & E & H'). rewrite E in Hs. destruct (vsim_ok _ _ _ _ Hs eq_refl) as (w' & Ew & H). exists w'. split; [exact Ew|]. rewrite H, H'. reflexivity.
  - rewrite G in Hs. exact Hs.
Qed.

(** Removing the last element in every round. *)
Lemma shrink_step s id L cap : fst s !! id = Some (LVec L cap) -> L <> [] ->
  ys_step triv eqb (YVec (OPop id)) s =
  Ok (YOut RUnit, (<[id := LVec (removelast L) (cap_pop (length L - 1) cap)]> (fst s), follow_pos (OPop id) (fst s) <$> snd s)).
Proof. intros Hl Hne. cbn [ys_step lv_step]. unfold lwith. rewrite Hl. cbn [l_seq l_cap]. destruct L; [congruence|]. reflexivity. Qed.
Lemma follow_pop (S : lworld A) (V : gmap nat pos) id k i L cap : S !! id = Some (LVec L cap) -> V !! k = Some (PAt id i) ->
  (follow_pos (OPop id) S <$> V) !! k = Some (if length L - 1 <? cap / 3 then PGone else PAt id i).
Proof.
  intros Hl Hk. rewrite lookup_fmap, Hk. cbn [fmap option_fmap option_map follow_pos follow]. rewrite Nat.eqb_refl. unfold of_vec, pop_replaces. rewrite Hl. reflexivity.
Qed.
Lemma shrinking_loop id e it x (Hx : x <> it) (Hx' : x <> e) (Hi : it <> e) n : forall fuel i L cap s seen, n - i <= fuel -> i < n -> 2 <= n -> length L = n - i ->
  fst s !! id = Some (LVec L cap) -> length L <= cap -> snd s !! it = Some (PAt id i) -> snd s !! e = Some (PAt id n) ->
  veach_spec triv eqb fuel e it x (shrinking x id) seen s = UB.
Proof.
  induction fuel as [|f IH]; intros i L cap s seen Hf Hin Hn HL Hl Hc Hit He; [lia|].
  destruct (L !! i) as [a|] eqn:Ha; [|eapply round_ub; eauto; lia].
  rewrite (round _ _ _ _ _ _ _ _ _ _ _ _ _ Hit He ltac:(lia) Hl Ha). unfold shrinking at 1.
  erewrite read_ok by first [cbn [snd]; apply lookup_insert | exact Hl | exact Ha]. cbn [vclient_spec].
  pose proof (lookup_lt_Some _ _ _ Ha) as Hlt.
  rewrite (shrink_step (fst s, <[x := PAt id i]> (snd s)) id L cap Hl ltac:(destruct L; [cbn in *; lia|congruence])). cbn [vclient_spec fst snd].
  rewrite (follow_pop _ _ _ _ i _ _ Hl) by (rewrite lookup_insert_ne by exact Hx; exact Hit).
  destruct (length L - 1 <? cap / 3) eqn:Er; [reflexivity|].
  assert (cap_pop (length L - 1) cap = cap) as Hcp by (unfold cap_pop; rewrite Er; reflexivity). rewrite Hcp.
  erewrite next_at by first [apply lookup_insert | lia].
  destruct (Nat.eq_dec (i + 1) n) as [E|E]; [lia|].
  assert (length (removelast L) = length L - 1) as HR.
  { destruct L as [|y L'] using rev_ind; [cbn in *; lia|]. rewrite removelast_last, app_length. cbn. lia. }
  eapply IH with (i := i + 1); cbn [fst snd].
  - lia.
  - lia.
  - exact Hn.
  - rewrite HR. lia.
  - apply lookup_insert.
  - rewrite HR. lia.
  - apply lookup_insert.
  - rewrite lookup_insert_ne by exact Hi. rewrite (follow_pop _ _ _ _ n _ _ Hl), Er by (rewrite lookup_insert_ne by exact Hx'; exact He). reflexivity.
Qed.
Theorem veach_shrinking ops rs w id v l b e it x fuel : NoDup [b; e; it; x] ->
  mrun (y_step triv eqb) ops y_init = Ok (rs, w) -> holds (fst w) id v l -> l <> [] -> length l <= fuel ->
  let run := (mrun (y_step triv eqb) [YBegin b id; YEnd e id] ;;; veach triv eqb fuel b e it x (shrinking x id) []) w in
  if (length l =? 1) && (v_cap v <? 3)
  then exists w', run = Ok (l, w') /\ contents (fst w') id = Some []
  else run = UB.
Proof.
  intros Hn Hr Hh Hne Hf. cbv zeta. assert (b <> e /\ it <> e /\ x <> it /\ x <> e) as (Hbe & Hie & Hxi & Hxe).
  { rewrite !NoDup_cons in Hn. set_solver. }
  destruct (nonempty_from ops rs w id v l fuel b e it x (shrinking x id) [] Hr Hh Hbe Hne) as (s & Hl & Hc & _ & Hs).
  pose proof (begun_it (fst s) (snd s) b e it id (length l)) as Hit. pose proof (begun_e (fst s) (snd s) b e it id (length l) Hie) as He.
  change (fst s) with (fst (begun (fst s) (snd s) b e it id (length l))) in Hl. set (s0 := begun (fst s) (snd s) b e it id (length l)) in *. clearbody s0. clear s.
  destruct (Nat.eqb_spec (length l) 1) as [E1|E1]; cbn [andb].
  2:{ rewrite (shrinking_loop id e it x Hxi Hxe Hie (length l) fuel 0 l (v_cap v) s0 []) in Hs by (first [assumption | destruct l; cbn [length] in *; [congruence|lia]]). exact Hs. }
  destruct l as [|a [|]]; try discriminate. cbn [length] in *. destruct fuel as [|f]; [lia|].
  rewrite (round f e it x (shrinking x id) [] s0 id 0 1 _ _ a Hit He ltac:(lia) Hl eq_refl) in Hs. unfold shrinking at 1 in Hs.
  erewrite read_ok in Hs by first [cbn [snd]; apply lookup_insert | exact Hl | reflexivity]. cbn [vclient_spec] in Hs.
  rewrite (shrink_step (fst s0, <[x := PAt id 0]> (snd s0)) id [a] (v_cap v) Hl) in Hs by discriminate. cbn [vclient_spec fst snd] in Hs.
  rewrite (follow_pop _ _ _ _ 0 _ _ Hl) in Hs by (rewrite lookup_insert_ne by exact Hxi; exact Hit). cbn [length] in Hs.
  assert ((1 - 1 <? v_cap v / 3) = negb (v_cap v <? 3)) as Er.
  { destruct (Nat.ltb_spec (v_cap v) 3) as [H3|H3].
    - rewrite Nat.div_small by lia. reflexivity.
    - pose proof (Nat.div_le_lower_bound (v_cap v) 3 1 ltac:(lia) ltac:(lia)). apply Nat.ltb_lt. lia. }
  rewrite Er in Hs. destruct (v_cap v <? 3) eqn:E3; cbn [negb] in Hs; [|exact Hs].
  assert (cap_pop (1 - 1) (v_cap v) = v_cap v) as Hcp by (unfold cap_pop; rewrite Er; reflexivity). rewrite Hcp in Hs.
  erewrite next_at in Hs by first [apply lookup_insert | lia].
  rewrite (round_end f e it x _ _ _ id 1) in Hs.
  2: apply lookup_insert.
  2:{ cbn [snd]. rewrite lookup_insert_ne by exact Hie. rewrite (follow_pop _ _ _ _ 1 _ _ Hl) by (rewrite lookup_insert_ne by exact Hxe; exact He). cbn [length]. rewrite Er. reflexivity. }
  destruct (vsim_ok _ _ _ _ Hs eq_refl) as (w' & Ew & H). exists w'. split; [exact Ew|]. rewrite H. cbn [fst]. rewrite lookup_insert. reflexivity.
Qed.

(** Moving the end. *)
Lemma stopping_loop id e it x P (Hx : x <> it) (Hx' : x <> e) (Hi : it <> e) cap : forall rest pre s fuel seen, length rest <= fuel ->
  fst s !! id = Some (LVec (pre ++ rest) cap) -> length (pre ++ rest) <= cap ->
  snd s !! it = Some (PAt id (length pre)) -> snd s !! e = Some (PAt id (length (pre ++ rest))) ->
  exists s', veach_spec triv eqb fuel e it x (stopping x e P) seen s = Ok (seen ++ until P rest, s') /\ fst s' = fst s.
Proof.
  induction rest as [|a rest IH]; intros pre s fuel seen Hf Hl Hc Hit He.
  - cbn [until]. rewrite !app_nil_r in *. exists s. rewrite (round_end _ _ _ _ _ _ _ _ _ Hit He). auto.
  - destruct fuel as [|f]; [cbn in Hf; lia|]. cbn [length] in Hf.
    assert (length pre <> length (pre ++ a :: rest)) as Hne by (rewrite app_length; cbn; lia).
    assert ((pre ++ a :: rest) !! length pre = Some a) as Ha by (rewrite lookup_app_r by lia; rewrite Nat.sub_diag; reflexivity).
    rewrite (round _ _ _ _ _ _ _ _ _ _ _ _ _ Hit He Hne Hl Ha). unfold stopping at 1.
    erewrite !read_ok by first [cbn [snd]; apply lookup_insert | exact Hl | exact Ha].
    assert (length pre < cap) as Hp by (rewrite !app_length in Hc; cbn [length] in Hc; lia). cbn [until].
    destruct (P a).
    + cbn [vclient_spec ys_step]. unfold with_var. cbn [snd fst]. rewrite lookup_insert. rewrite (next_at _ _ _ _ _ Hl Hp). cbn [orub]. unfold setting. cbn [fst snd].
      rewrite lookup_insert_ne, lookup_insert_ne, Hit by congruence. rewrite (next_at _ _ _ _ _ Hl Hp).
      eexists. rewrite (round_end f e it x _ _ _ id (length pre + 1)).
      * split; reflexivity.
      * apply lookup_insert.
      * cbn [snd]. rewrite lookup_insert_ne by exact Hi. apply lookup_insert.
    + cbn [vclient_spec fst snd]. rewrite lookup_insert_ne, Hit by exact Hx. rewrite (next_at _ _ _ _ _ Hl Hp).
      specialize (IH (pre ++ [a]) (fst s, <[it := PAt id (length pre + 1)]> (<[x := PAt id (length pre)]> (snd s))) f (seen ++ [a]) ltac:(lia)).
      rewrite <- !app_assoc in IH. cbn [app fst snd] in IH. specialize (IH Hl Hc). rewrite lookup_insert, app_length in IH. specialize (IH eq_refl).
      rewrite !lookup_insert_ne in IH by congruence. exact (IH He).
Qed.
Theorem veach_stopping ops rs w id v l b e it x P fuel : NoDup [b; e; it; x] ->
  mrun (y_step triv eqb) ops y_init = Ok (rs, w) -> holds (fst w) id v l -> l <> [] -> length l <= fuel ->
  exists w', (mrun (y_step triv eqb) [YBegin b id; YEnd e id] ;;; veach triv eqb fuel b e it x (stopping x e P) []) w = Ok (until P l, w') /\ contents (fst w') id = Some l.
Proof.
  intros Hn Hr Hh Hne Hf. assert (b <> e /\ it <> e /\ x <> it /\ x <> e) as (Hbe & Hie & Hxi & Hxe).
  { rewrite !NoDup_cons in Hn. set_solver. }
  destruct (nonempty_from ops rs w id v l fuel b e it x (stopping x e P) [] Hr Hh Hbe Hne) as (s & Hl & Hc & _ & Hs).
  destruct (stopping_loop id e it x P Hxi Hxe Hie (v_cap v) l [] (begun (fst s) (snd s) b e it id (length l)) fuel [] Hf Hl Hc (begun_it _ _ _ _ _ _ _) (begun_e _ _ _ _ _ _ _ Hie)) as (s' & E & H').
  rewrite E in Hs. destruct (vsim_ok _ _ _ _ Hs eq_refl) as (w' & Ew & H). exists w'. split; [exact Ew|]. rewrite H, H'. cbn [begun fst]. rewrite Hl. reflexivity.
Qed.

(** Moving the vector away under the loop. *)
Lemma moved_loop id dst e it x (Hx : x <> it) (Hx' : x <> e) (Hi : it <> e) cap : forall rest pre s fuel seen, length rest <= fuel -> seen <> [] ->
  fst s !! dst = Some (LVec (pre ++ rest) cap) -> length (pre ++ rest) <= cap ->
  snd s !! it = Some (PAt dst (length pre)) -> snd s !! e = Some (PAt dst (length (pre ++ rest))) ->
  exists s', veach_spec triv eqb fuel e it x (moving x id dst) seen s = Ok (seen ++ rest, s') /\ fst s' = fst s.
Proof.
  induction rest as [|a rest IH]; intros pre s fuel seen Hf Hse Hl Hc Hit He.
  - rewrite !app_nil_r in *. exists s. rewrite (round_end _ _ _ _ _ _ _ _ _ Hit He). auto.
  - destruct fuel as [|f]; [cbn in Hf; lia|]. cbn [length] in Hf.
    assert (length pre <> length (pre ++ a :: rest)) as Hne by (rewrite app_length; cbn; lia).
    assert ((pre ++ a :: rest) !! length pre = Some a) as Ha by (rewrite lookup_app_r by lia; rewrite Nat.sub_diag; reflexivity).
    rewrite (round _ _ _ _ _ _ _ _ _ _ _ _ _ Hit He Hne Hl Ha). unfold moving at 1.
    erewrite !read_ok by first [cbn [snd]; apply lookup_insert | exact Hl | exact Ha].
    assert (length pre < cap) as Hp by (rewrite !app_length in Hc; cbn [length] in Hc; lia).
    destruct seen as [|y seen]; [congruence|]. cbn [vclient_spec fst snd]. rewrite lookup_insert_ne, Hit by exact Hx. rewrite (next_at _ _ _ _ _ Hl Hp).
    specialize (IH (pre ++ [a]) (fst s, <[it := PAt dst (length pre + 1)]> (<[x := PAt dst (length pre)]> (snd s))) f ((y :: seen) ++ [a]) ltac:(lia) ltac:(discriminate)).
    rewrite <- !app_assoc in IH. cbn [app fst snd] in IH. specialize (IH Hl Hc). rewrite lookup_insert, app_length in IH. specialize (IH eq_refl).
    rewrite !lookup_insert_ne in IH by congruence. exact (IH He).
Qed.
Theorem veach_moving ops rs w id dst v l b e it x fuel : NoDup [b; e; it; x] ->
  mrun (y_step triv eqb) ops y_init = Ok (rs, w) -> holds (fst w) id v l -> l <> [] -> length l <= fuel -> w_objs (fst w) !! dst = None ->
  exists w', (mrun (y_step triv eqb) [YBegin b id; YEnd e id] ;;; veach triv eqb fuel b e it x (moving x id dst) []) w = Ok (l, w') /\
    contents (fst w') dst = Some l /\ contents (fst w') id = Some [].
Proof.
  intros Hn Hr Hh Hne Hf Hd. assert (b <> e /\ it <> e /\ x <> it /\ x <> e) as (Hbe & Hie & Hxi & Hxe).
  { rewrite !NoDup_cons in Hn. set_solver. }
  destruct (nonempty_from ops rs w id v l fuel b e it x (moving x id dst) [] Hr Hh Hbe Hne) as (s & Hl & Hc & Hdst & Hs).
  specialize (Hdst _ Hd). assert (dst <> id) as Hdi by congruence.
  pose proof (begun_it (fst s) (snd s) b e it id (length l)) as Hit. pose proof (begun_e (fst s) (snd s) b e it id (length l) Hie) as He.
  change (fst s) with (fst (begun (fst s) (snd s) b e it id (length l))) in Hl, Hdst. set (s0 := begun (fst s) (snd s) b e it id (length l)) in *. clearbody s0. clear s.
  destruct l as [|a l]; [congruence|]. destruct fuel as [|f]; [cbn in Hf; lia|]. cbn [length] in Hf.
  rewrite (round f e it x (moving x id dst) [] s0 id 0 (length (a :: l)) _ _ a Hit He ltac:(cbn; lia) Hl eq_refl) in Hs. unfold moving at 1 in Hs.
  erewrite read_ok in Hs by first [cbn [snd]; apply lookup_insert | exact Hl | reflexivity]. cbn [vclient_spec ys_step lv_step] in Hs. unfold lnew, lwith in Hs. cbn [fst snd] in Hs.
  rewrite Hdst, Hl in Hs. cbn [vclient_spec fst snd] in Hs.
  assert (forall k i, (<[x := PAt id 0]> (snd s0)) !! k = Some (PAt id i) -> (follow_pos (OMoveNew dst id) (fst s0) <$> <[x := PAt id 0]> (snd s0)) !! k = Some (PAt dst i)) as Hk.
  { intros k i E. rewrite lookup_fmap, E. cbn [fmap option_fmap option_map follow_pos follow]. rewrite Nat.eqb_refl. reflexivity. }
  rewrite (Hk it 0) in Hs by (rewrite lookup_insert_ne by exact Hxi; exact Hit).
  assert ((<[id := LVec [] 0]> (<[dst := LVec (a :: l) (v_cap v)]> (fst s0))) !! dst = Some (LVec (a :: l) (v_cap v))) as Hl' by (rewrite lookup_insert_ne, lookup_insert by congruence; reflexivity).
  rewrite (next_at _ _ _ _ _ Hl') in Hs by (cbn in Hc; lia).
  match type of Hs with vsim (veach_spec _ _ _ _ _ _ _ _ ?s2) _ => destruct (moved_loop id dst e it x Hxi Hxe Hie (v_cap v) l [a] s2 f [a]) as (s' & E & H') end.
  - lia.
  - discriminate.
  - exact Hl'.
  - exact Hc.
  - apply lookup_insert.
  - cbn [snd]. rewrite lookup_insert_ne by exact Hie. apply Hk. rewrite lookup_insert_ne by exact Hxe. exact He.
  - rewrite E in Hs. destruct (vsim_ok _ _ _ _ Hs eq_refl) as (w' & Ew & H). exists w'. split; [exact Ew|]. rewrite !H, H'. cbn [fst]. rewrite Hl', lookup_insert. auto.
Qed.
End Top.
