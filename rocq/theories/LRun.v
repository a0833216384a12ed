(** How the typed vector operations run on sequences. *)
From Verif Require Import Base VectorModel VectorSpec VecProg VectorProofs VectorWorld VectorExtra.

Section LRun.
Context {A : Type} (triv : bool).
Implicit Types (s : lworld A) (c : list A).

Lemma at_index_nat {X} c i (k : nat -> res X) : i < length c -> at_index c (Z.of_nat i) k = k i.
Proof.
  intros Hi. unfold at_index, py_index. destruct (Z.leb_spec 0 (Z.of_nat i)); [|lia].
  destruct (Z.ltb_spec (Z.of_nat i) (Z.of_nat (length c))); [|lia]. rewrite Nat2Z.id. reflexivity.
Qed.
Lemma at_index_big {X} c i (k : nat -> res X) : length c <= i -> at_index c (Z.of_nat i) k = Abort.
Proof.
  intros Hi. unfold at_index, py_index. destruct (Z.leb_spec 0 (Z.of_nat i)); [|lia].
  destruct (Z.ltb_spec (Z.of_nat i) (Z.of_nat (length c))); [lia|].
  destruct (Z.leb_spec (Z.of_nat (length c)) (Z.of_nat i)); [reflexivity|lia].
Qed.

Lemma wget_ok s id c cap i a : s !! id = Some (LVec c cap) -> c !! i = Some a ->
  lrun triv (wget id (Z.of_nat i)) s = Ok (a, s).
Proof.
  intros Hs Ha. unfold wget, wval. cbn [lrun lw_step lv_step]. unfold lwith. rewrite Hs. cbn [l_seq].
  rewrite at_index_nat by (eapply lookup_lt_Some; exact Ha). rewrite nth_error_lookup, Ha. reflexivity.
Qed.
Lemma wget_abort s id c cap i : s !! id = Some (LVec c cap) -> length c <= i ->
  lrun triv (wget id (Z.of_nat i)) s = Abort.
Proof.
  intros Hs Hi. unfold wget, wval. cbn [lrun lw_step lv_step]. unfold lwith. rewrite Hs. cbn [l_seq].
  rewrite at_index_big by assumption. reflexivity.
Qed.
Lemma wset_ok s id c cap i a : s !! id = Some (LVec c cap) -> i < length c ->
  lrun triv (wset id (Z.of_nat i) a) s = Ok (tt, <[id := LVec (<[i := a]> c) cap]> s).
Proof.
  intros Hs Hi. unfold wset, wunit. cbn [lrun lw_step lv_step]. unfold lwith. rewrite Hs. cbn [l_seq l_cap].
  rewrite at_index_nat by assumption. reflexivity.
Qed.
Lemma wset_abort s id c cap i a : s !! id = Some (LVec c cap) -> length c <= i ->
  lrun triv (wset id (Z.of_nat i) a) s = Abort.
Proof.
  intros Hs Hi. unfold wset, wunit. cbn [lrun lw_step lv_step]. unfold lwith. rewrite Hs. cbn [l_seq l_cap].
  rewrite at_index_big by assumption. reflexivity.
Qed.
Lemma wsize_ok s id c cap : s !! id = Some (LVec c cap) -> lrun triv (wsize id) s = Ok (length c, s).
Proof. intros Hs. cbn. unfold lwith. rewrite Hs. reflexivity. Qed.
Lemma wempty_ok s id c cap : s !! id = Some (LVec c cap) ->
  lrun triv (wempty id) s = Ok (match c with [] => true | _ => false end, s).
Proof. intros Hs. cbn. unfold lwith. rewrite Hs. reflexivity. Qed.
Lemma witer_ok s id c cap : s !! id = Some (LVec c cap) -> lrun triv (witer id) s = Ok (c, s).
Proof. intros Hs. cbn. unfold lwith. rewrite Hs. reflexivity. Qed.
Lemma wcap_ok s id c cap : s !! id = Some (LVec c cap) -> lrun triv (wcap id) s = Ok (cap, s).
Proof. intros Hs. cbn. unfold lwith. rewrite Hs. reflexivity. Qed.
Lemma wback_ok s id c a cap : s !! id = Some (LVec (c ++ [a]) cap) -> lrun triv (wval (OBack id)) s = Ok (a, s).
Proof.
  intros Hs. cbn. unfold lwith. rewrite Hs. cbn [l_seq]. rewrite app_length. simpl. rewrite Nat.add_sub.
  rewrite nth_error_app2, Nat.sub_diag by lia. reflexivity.
Qed.
Lemma wback_abort s id cap : s !! id = Some (LVec [] cap) -> lrun triv (wval (OBack id)) s = Abort.
Proof. intros Hs. cbn. unfold lwith. rewrite Hs. reflexivity. Qed.
Lemma wpush_ok s id c a cap : s !! id = Some (LVec c cap) ->
  lrun triv (wunit (OPush id a)) s = Ok (tt, <[id := LVec (c ++ [a]) (cap_push (length c) cap)]> s).
Proof. intros Hs. cbn. unfold lwith. rewrite Hs. reflexivity. Qed.
Lemma wpop_ok s id c a cap : s !! id = Some (LVec (c ++ [a]) cap) ->
  lrun triv (wunit (OPop id)) s = Ok (tt, <[id := LVec c (cap_pop (length c) cap)]> s).
Proof.
  intros Hs. cbn. unfold lwith. rewrite Hs. cbn [l_seq l_cap].
  destruct (c ++ [a]) eqn:E; [destruct c; discriminate|]. rewrite <- E, removelast_last, app_length.
  simpl. rewrite Nat.add_sub. reflexivity.
Qed.
Lemma wpush_elem_ok s id src c cap u ucap i a :
  s !! id = Some (LVec c cap) -> s !! src = Some (LVec u ucap) -> u !! i = Some a ->
  id <> src \/ length c <> cap ->
  lrun triv (wpush_elem id src (Z.of_nat i)) s = Ok (tt, <[id := LVec (c ++ [a]) (cap_push (length c) cap)]> s).
Proof.
  intros Hs Hu Ha Hor. cbn. unfold lwith. rewrite Hs, Hu. cbn [l_seq l_cap].
  rewrite at_index_nat by (eapply lookup_lt_Some; exact Ha). rewrite nth_error_lookup, Ha.
  destruct (Nat.eqb_spec id src); destruct (Nat.eqb_spec (length c) cap); simpl; try reflexivity.
  destruct Hor; congruence.
Qed.
Lemma wnew_ok s id : s !! id = None -> lrun triv (wunit (ONew id)) s = Ok (tt, <[id := LVec [] 0]> s).
Proof. intros Hs. cbn. unfold lnew. rewrite Hs. reflexivity. Qed.
Lemma wclear_ok s id v : s !! id = Some v -> lrun triv (wunit (OClear id)) s = Ok (tt, <[id := LVec [] 0]> s).
Proof. intros Hs. cbn. unfold lwith. rewrite Hs. reflexivity. Qed.
Lemma wdestroy_ok s id v : s !! id = Some v -> lrun triv (wunit (ODestroy id)) s = Ok (tt, delete id s).
Proof. intros Hs. cbn. unfold lwith. rewrite Hs. reflexivity. Qed.
Lemma wfill_ok s id n a : s !! id = None -> n <> 0 ->
  lrun triv (wunit (OFill id n a)) s = Ok (tt, <[id := LVec (repeat a n) n]> s).
Proof. intros Hs Hn. cbn. unfold lnew. rewrite Hs. destruct (Nat.eqb_spec n 0); [lia|reflexivity]. Qed.
Lemma wresize_ok s id c cap n : s !! id = Some (LVec c cap) ->
  lrun triv (wunit (OResize id n)) s = Ok (tt, <[id := LVec (firstn n c) n]> s).
Proof. intros Hs. cbn. unfold lwith. rewrite Hs. reflexivity. Qed.
Lemma wresize_fill_ok s id c cap n a : s !! id = Some (LVec c cap) ->
  lrun triv (wunit (OResizeFill id n a)) s = Ok (tt, <[id := LVec (firstn n c ++ repeat a (n - length c)) n]> s).
Proof. intros Hs. cbn. unfold lwith. rewrite Hs. reflexivity. Qed.
Lemma wassign_ok s id src v u : s !! id = Some v -> s !! src = Some u -> id <> src -> copyable triv (l_seq u) = true ->
  lrun triv (wunit (OAssign id src)) s = Ok (tt, <[id := u]> s).
Proof.
  intros Hs Hu Hne Hc. cbn. unfold lwith. rewrite Hs, Hu, Hc. destruct (Nat.eqb_spec id src); [congruence|reflexivity].
Qed.
Lemma wassign_self s id v : s !! id = Some v -> lrun triv (wunit (OAssign id id)) s = Ok (tt, s).
Proof. intros Hs. cbn. unfold lwith. rewrite Hs, Nat.eqb_refl. reflexivity. Qed.
Lemma wmove_ok s id src v u : s !! id = Some v -> s !! src = Some u -> id <> src ->
  lrun triv (wunit (OMoveAssign id src)) s = Ok (tt, <[src := LVec [] 0]> (<[id := u]> s)).
Proof.
  intros Hs Hu Hne. cbn. unfold lwith. rewrite Hs, Hu. destruct (Nat.eqb_spec id src); [congruence|reflexivity].
Qed.
Lemma wmove_self s id v : s !! id = Some v -> lrun triv (wunit (OMoveAssign id id)) s = Ok (tt, s).
Proof. intros Hs. cbn. unfold lwith. rewrite Hs, Nat.eqb_refl. reflexivity. Qed.
Lemma wcopy_new_ok s id src u : s !! id = None -> s !! src = Some u -> copyable triv (l_seq u) = true ->
  lrun triv (wunit (OCopyNew id src)) s = Ok (tt, <[id := u]> s).
Proof. intros Hs Hu Hc. cbn. unfold lnew, lwith. rewrite Hs, Hu, Hc. reflexivity. Qed.
Lemma wmove_new_ok s id src u : s !! id = None -> s !! src = Some u ->
  lrun triv (wunit (OMoveNew id src)) s = Ok (tt, <[src := LVec [] 0]> (<[id := u]> s)).
Proof. intros Hs Hu. cbn. unfold lnew, lwith. rewrite Hs, Hu. reflexivity. Qed.
End LRun.

(** [lgo H]: perform the first step of the goal's program with the run lemma [H]. *)
Tactic Notation "lgo" uconstr(H) := erewrite lrun_bind_ok by (eapply H; eauto using lookup_insert).

Lemma wpush_own_ub {A} triv (s : lworld A) id c i : s !! id = Some (LVec c (length c)) -> i < length c ->
  lrun triv (wpush_elem id id (Z.of_nat i)) s = UB.
Proof.
  intros Hs Hi. cbn. unfold lwith. rewrite Hs. cbn [l_seq l_cap]. rewrite at_index_nat by assumption.
  rewrite nth_error_lookup. destruct (lookup_lt_is_Some_2 c i Hi) as [a ->]. rewrite !Nat.eqb_refl. reflexivity.
Qed.
