(** Strings with the machine integers of Vector. *)
From Verif Require Import Base VectorModel VectorSpec VecProg VectorProofs VectorWorld VectorExtra Adapter LRun StringModel StringSpec StringProofs ArithModel IntModel IntProofs IntVecModel IntVecSpec IntVecProofs IntStrSpec.
Local Open Scope nat_scope.

(** ** Programs that make no vector too long *)
Section Fit.
Context {A : Type} (triv : bool).
Notation lrun := (lrun triv).
Notation lw_step := (lw_step triv).
Implicit Types (s : lworld A).

Definition allshort s : Prop := forall id l, s !! id = Some l -> (zn (length (l_seq l)) <= INT_MAX)%Z.
Definition room (o : wop A) s : Prop :=
  match o with
  | WOp (OPush id _) => forall l, s !! id = Some l -> (zn (length (l_seq l)) < INT_MAX)%Z
  | WPushElem id _ i => (forall l, s !! id = Some l -> (zn (length (l_seq l)) < INT_MAX)%Z) /\ (INT_MIN <= i <= INT_MAX)%Z
  | WOp (OFill _ n _) | WOp (OResizeFill _ n _) => (zn n <= INT_MAX)%Z
  | WOp (OGet _ i) | WOp (OSet _ i _) => (INT_MIN <= i <= INT_MAX)%Z
  | _ => True
  end.
Lemma room_small o s : allshort s -> room o s -> lsmall o s.
Proof.
  intros Hs Hr. destruct o as [o|id|id src i]; [destruct o|..]; cbn [room lsmall] in *; auto; try (intros l El; eapply Hs, El);
    try (split; [intros l El; eapply Hs, El|]; try (intros l El; eapply Hs, El); auto).
  split; [intros l El; eapply Hs, El|apply Hr].
Qed.
Lemma allshort_insert s id l : allshort s -> (zn (length (l_seq l)) <= INT_MAX)%Z -> allshort (<[id := l]> s).
Proof.
  intros Hs Hl i l' E. destruct (decide (id = i)) as [<-|Hne].
  - rewrite lookup_insert in E. injection E as <-. exact Hl.
  - rewrite lookup_insert_ne in E by assumption. eapply Hs, E.
Qed.
Lemma allshort_delete s id : allshort s -> allshort (delete id s).
Proof. intros Hs i l E. apply lookup_delete_Some in E as [_ E]. eapply Hs, E. Qed.
Lemma room_step o s r s' : allshort s -> room o s -> lw_step o s = Ok (r, s') -> allshort s'.
Proof.
  intros Hs Hr E.
  assert (Hz : (0 <= INT_MAX)%Z) by (unfold INT_MAX; lia).
  destruct o as [o|id|id src i]; [destruct o|..]; cbn [VecProg.lw_step lv_step room] in *; unfold lwith, lnew, at_index in E;
    repeat match type of E with
    | context [match ?s !! ?id with _ => _ end] => let H := fresh "F" in destruct (s !! id) eqn:H; try discriminate
    | context [if ?b then _ else _] => let H := fresh "B" in destruct b eqn:H; try discriminate
    | context [match py_index ?n ?i with _ => _ end] => destruct (py_index n i); try discriminate
    | context [match nth_error ?l ?i with _ => _ end] => destruct (nth_error l i); try discriminate
    | context [match l_seq ?l with _ => _ end] => let H := fresh "Q" in destruct (l_seq l) eqn:H; try discriminate
    end; injection E as <- <-; auto;
    repeat first [apply allshort_insert|apply allshort_delete]; auto; cbn [l_seq length]; auto; try (eapply Hs; eassumption);
    repeat match goal with F : s !! _ = Some ?l |- _ => lazymatch goal with _ : (zn (length (l_seq l)) <= INT_MAX)%Z |- _ => fail | _ => pose proof (Hs _ _ F) end end;
    rewrite ?app_length, ?repeat_length, ?insert_length, ?firstn_length, ?app_length; cbn [length]; try lia.
  - specialize (Hr _ eq_refl). lia.
  - change (zn (length (removelast (a :: l0))) <= INT_MAX)%Z. rewrite removelast_firstn_len, firstn_length.
    rewrite B in *. cbn [length] in *. lia.
  - pose proof (proj1 Hr _ eq_refl). lia.
  - pose proof (proj1 Hr _ eq_refl). lia.
Qed.

Fixpoint lfit {X} (p : wprog A X) s : Prop :=
  match p with
  | WDo o k => room o s /\ match lw_step o s with Ok (r, s') => lfit (k r) s' | _ => True end
  | _ => True
  end.
Lemma lfit_safe {X} (p : wprog A X) : forall s, allshort s -> lfit p s ->
  lsafe triv p s /\ forall x s', lrun p s = Ok (x, s') -> allshort s'.
Proof.
  induction p as [x| | | |o k IH]; intros s Hs H; cbn [lsafe lfit VecProg.lrun] in *; try (split; [exact I|]; congruence).
  - split; [exact I|]. intros y s' [= _ <-]. exact Hs.
  - destruct H as [H1 H2]. destruct (lw_step o s) as [[r s1]| | |] eqn:E.
    + destruct (IH r s1) as [I1 I2]; [eapply room_step; eauto|exact H2|]. split; [|exact I2]. split; [apply room_small; auto|exact I1].
    + split; [split; [apply room_small; auto|exact I]|discriminate].
    + split; [split; [apply room_small; auto|exact I]|discriminate].
    + split; [split; [apply room_small; auto|exact I]|discriminate].
Qed.
Lemma lfit_bind {X Y} (p : wprog A X) (f : X -> wprog A Y) : forall s,
  lfit p s -> (forall x s', lrun p s = Ok (x, s') -> lfit (f x) s') -> lfit (wbind p f) s.
Proof.
  induction p as [x| | | |o k IH]; intros s H1 H2; cbn [wbind lfit] in *; auto. destruct H1 as [H1 H3]. split; [exact H1|].
  cbn [VecProg.lrun] in H2. destruct (lw_step o s) as [[r s1]| | |]; auto.
Qed.
Lemma lfit_then {X Y} (p : wprog A X) (f : X -> wprog A Y) s x s' :
  lrun p s = Ok (x, s') -> lfit p s -> lfit (f x) s' -> lfit (wbind p f) s.
Proof. intros H2 H1 H3. apply lfit_bind; [exact H1|]. intros y s1 E. rewrite H2 in E. injection E as <- <-. exact H3. Qed.
Lemma fit_calls {X} (p : wprog A X) : forall w s, winv w s -> allshort s -> lfit p s ->
  forall o w', calls triv p w o w' -> small_call o w'.
Proof.
  induction p as [x| | | |o k IH]; intros w s Hw Hs Hf o' w' Hc; inversion Hc as [|? ? ? ? ? ? ? E Hc']; subst.
  - split.
    + intros id v Ev. pose proof (wi_rep _ _ Hw id) as Hr. rewrite Ev in Hr. destruct (s !! id) as [l|] eqn:El; [|contradiction].
      rewrite (vrep_size _ _ _ (proj1 Hr)). eapply Hs, El.
    + destruct Hf as [Hf _]. destruct o' as [o|id|id src i]; [destruct o|..]; cbn [room] in Hf; auto. apply Hf.
  - destruct Hf as [Hf1 Hf2]. pose proof (w_step_sim triv o w s Hw) as Hsim. rewrite E in Hsim. unfold sim_res in Hsim.
    destruct (lw_step o s) as [[r1 s1]| | |] eqn:El; try discriminate. destruct Hsim as (w2 & E2 & Hw2). injection E2 as <- <-.
    eapply IH; [exact Hw2|eapply room_step; eauto|exact Hf2|exact Hc'].
Qed.
End Fit.

(** Programs that fit whatever the state. *)
Section Quiet.
Implicit Types (s : lworld Z).
Local Notation run := (lrun true).
Definition quiet {X} (p : wprog Z X) : Prop := forall s, lfit true p s.
Lemma q_ret {X} (x : X) : quiet (WRet x).
Proof. intros s. exact I. Qed.
Lemma q_bind {X Y} (p : wprog Z X) (f : X -> wprog Z Y) : quiet p -> (forall x, quiet (f x)) -> quiet (wbind p f).
Proof. intros H1 H2 s. apply lfit_bind; [apply H1|]. intros x s' _. apply H2. Qed.
Lemma q_do {X} (o : wop Z) (k : out Z -> wprog Z X) : (forall s, room o s) -> (forall r, quiet (k r)) -> quiet (WDo o k).
Proof. intros H1 H2 s. cbn [lfit]. split; [apply H1|]. destruct (lw_step true o s) as [[r s']| | |]; auto. apply H2. Qed.
Ltac q := repeat first
  [ apply q_ret | apply q_bind; [|intros ?] | apply q_do; [intros ?; cbn [room]; try exact I; try (unfold INT_MIN, INT_MAX; lia)|intros ?]
  | match goal with
    | |- quiet (if ?b then _ else _) => destruct b
    | |- quiet (match ?x with _ => _ end) => destruct x
    | |- quiet WUB => intros ?; exact I
    | |- quiet WAbort => intros ?; exact I
    end ].
Lemma q_init v : quiet (st_init v).
Proof. unfold st_init, wunit. q. Qed.
Lemma q_assign v u : quiet (st_assign v u).
Proof. unfold st_assign, wunit. q. Qed.
Lemma q_move v u : quiet (st_move v u).
Proof. unfold st_move, wunit. q. Qed.
Lemma q_destroy v : quiet (st_destroy v).
Proof. unfold st_destroy, wunit. q. Qed.
Lemma q_copy_new v u : quiet (st_copy_new v u).
Proof. unfold st_copy_new. apply q_bind; [apply q_init|intros ?; apply q_assign]. Qed.
Lemma q_move_new v u : quiet (st_move_new v u).
Proof. unfold st_move_new. apply q_bind; [apply q_init|intros ?; apply q_move]. Qed.
Lemma q_size v : quiet (wsize (A := Z) v).
Proof. unfold wsize. q. Qed.
Lemma q_cap v : quiet (wcap (A := Z) v).
Proof. unfold wcap. q. Qed.
Lemma q_clear v : quiet (wunit (A := Z) (OClear v)).
Proof. unfold wunit. q. Qed.
Lemma q_resize v n : quiet (wunit (A := Z) (OResize v n)).
Proof. unfold wunit. q. Qed.
Lemma q_get v i : (INT_MIN <= i <= INT_MAX)%Z -> quiet (wget (A := Z) v i).
Proof. intros Hi. unfold wget, wval. apply q_do; [intros s; exact Hi|]. intros []; intros ?; exact I. Qed.
Lemma q_set v i c : (INT_MIN <= i <= INT_MAX)%Z -> quiet (wset (A := Z) v i c).
Proof. intros Hi. unfold wset, wunit. apply q_do; [intros s; exact Hi|]. intros r s. exact I. Qed.
Lemma q_front v : quiet (st_front v).
Proof. unfold st_front, wval. q. Qed.
Lemma q_iter v : quiet (witer (A := Z) v).
Proof. unfold witer. q. Qed.
Lemma q_eq_loop p1 p2 k : forall i, (zn (i + k) <= INT_MAX)%Z -> quiet (st_eq_loop k i p1 p2).
Proof.
  induction k as [|k IH]; intros i Hi; cbn [st_eq_loop]; [apply q_ret|].
  assert (INT_MIN <= zn i <= INT_MAX)%Z by (unfold INT_MIN; lia).
  apply q_bind; [apply q_get; assumption|]. intros x. apply q_bind; [apply q_get; assumption|]. intros y.
  destruct (x =? y)%Z; [apply IH; lia|apply q_ret].
Qed.

Lemma push_fit s v c l cap : s !! v = Some (LVec l cap) -> (zn (length l) < INT_MAX)%Z -> lfit true (wunit (OPush v c)) s.
Proof.
  intros E Hl. unfold wunit. cbn [lfit room lw_step lv_step]. unfold lwith. rewrite E. split; [|exact I]. intros l' [= <-]. exact Hl.
Qed.
Lemma read_fit rest : forall s v l cap cs, s !! v = Some (LVec l cap) -> cstr rest = Some cs ->
  (zn (length l + length cs) <= INT_MAX)%Z -> lfit true (st_read v rest) s.
Proof.
  induction rest as [|c rest IH]; intros s v l cap cs E Hc Hl; [discriminate|]. cbn [cstr st_read] in *.
  destruct (Z.eqb_spec c 0); [exact I|]. destruct (cstr rest) as [cs'|]; [|discriminate]. injection Hc as <-. cbn [length] in Hl.
  eapply lfit_then; [eapply wpush_ok, E|eapply push_fit; [exact E|lia]|].
  eapply IH; [apply lookup_insert|reflexivity|]. rewrite app_length. cbn [length]. lia.
Qed.
Lemma from_c_fit s v buf c cs : s !! v = None -> cstr buf = Some (c :: cs) -> (zn (length (c :: cs)) < INT_MAX)%Z ->
  lfit true (st_from_c v buf) s.
Proof.
  intros E Hc Hl. destruct buf as [|c' rest]; [discriminate|]. cbn [cstr] in Hc.
  destruct (Z.eqb_spec c' 0); [discriminate|]. destruct (cstr rest) as [cs'|] eqn:Er; [|discriminate]. injection Hc as -> ->. cbn [length] in Hl.
  unfold st_from_c. eapply lfit_then; [apply init_ok, E|apply q_init|].
  eapply lfit_then; [apply (wset_last _ _ [] 0%Z 15), lookup_insert|apply q_set; unfold INT_MIN, INT_MAX; lia|]. rewrite insert_insert.
  destruct (read_ok rest (<[v := LVec ([] ++ [c]) 15]> s) v _ _ cs (lookup_insert _ _ _) Er) as (cap' & Hr).
  eapply lfit_then; [exact Hr|eapply read_fit; [apply lookup_insert|exact Er|cbn [length app]; lia]|].
  eapply push_fit; [apply lookup_insert|]. cbn [length app]. lia.
Qed.
Lemma append_loop_fit : forall k f s v u l cap ul ucap i,
  s !! v = Some (LVec l cap) -> s !! u = Some (LVec ul ucap) -> v <> u -> i + k = length ul ->
  (zn (length l + k) <= INT_MAX)%Z -> (zn (length ul) <= INT_MAX)%Z -> lfit true (st_append_loop f v u i) s.
Proof.
  induction k as [|k IH]; intros f s v u l cap ul ucap i Hv Hu Hne Hi Hl Hul; (destruct f as [|f]; [exact I|]); cbn [st_append_loop];
    (eapply lfit_then; [eapply wsize_ok, Hu|apply q_size|]).
  - destruct (Nat.ltb_spec i (length ul)); [lia|exact I].
  - destruct (Nat.ltb_spec i (length ul)); [|lia]. destruct (lookup_lt_is_Some_2 ul i) as [a Ha]; [lia|].
    eapply lfit_then; [eapply wpush_elem_ok; [exact Hv|exact Hu|exact Ha|left; assumption]| |].
    + unfold wpush_elem. cbn [lfit room]. split; [|destruct (lw_step _ _ _) as [[? ?]| | |]; exact I].
      split; [|unfold INT_MIN; lia]. intros l' E. rewrite Hv in E. injection E as <-. cbn [l_seq]. lia.
    + eapply IH; [apply lookup_insert|rewrite lookup_insert_ne by assumption; exact Hu|assumption|lia| |exact Hul].
      rewrite app_length. cbn [length]. lia.
Qed.
Lemma append_fit s v u a cap b ucap : s !! v = Some (LVec (a ++ [0%Z]) cap) -> s !! u = Some (LVec (b ++ [0%Z]) ucap) -> v <> u ->
  (zn (length a + length b) < INT_MAX)%Z -> lfit true (st_append v u) s.
Proof.
  intros Hv Hu Hne Hl. unfold st_append.
  eapply lfit_then; [eapply wcap_ok, Hv|apply q_cap|]. eapply lfit_then; [eapply wsize_ok, Hv|apply q_size|].
  eapply lfit_then; [eapply wsize_ok, Hu|apply q_size|]. rewrite !app_length. cbn [length].
  destruct (Nat.eqb_spec (length a + 1 + (length b + 1)) 0); [lia|].
  set (m := length a + 1 + (length b + 1)).
  assert (exists cap1, run (if Nat.ltb cap (m - 1) then wunit (OResize v (m - 1)) else WRet tt) s =
     Ok (tt, <[v := LVec (a ++ [0%Z]) cap1]> s)) as (cap1 & Hr).
  { destruct (Nat.ltb cap (m - 1)).
    - erewrite wresize_ok by exact Hv. rewrite firstn_all2 by (rewrite app_length; simpl; lia). eauto.
    - exists cap. cbn [lrun]. rewrite insert_id by assumption. reflexivity. }
  eapply lfit_then; [exact Hr|assert (Hq : quiet (if Nat.ltb cap (m - 1) then wunit (OResize v (m - 1)) else WRet tt)) by (unfold wunit; q); apply Hq|].
  assert (exists c b', b ++ [0%Z] = c :: b') as (c & b' & Eb) by (destruct b; simpl; eauto).
  assert ((b ++ [0%Z]) !! 0 = Some c) as Hc by (rewrite Eb; reflexivity).
  change 0%Z with (Z.of_nat 0) at 1.
  eapply lfit_then; [eapply wget_ok; [rewrite lookup_insert_ne by assumption; exact Hu|exact Hc]|apply q_get; unfold INT_MIN, INT_MAX; lia|].
  eapply lfit_then; [eapply wset_last, lookup_insert|apply q_set; unfold INT_MIN, INT_MAX; lia|]. rewrite insert_insert.
  eapply (append_loop_fit (length b)); [apply lookup_insert|rewrite lookup_insert_ne by assumption; exact Hu|assumption|rewrite app_length; simpl; lia| |];
    rewrite app_length; cbn [length]; lia.
Qed.
Lemma plus_body_fit s r t p1 p2 a cap b cap2 :
  s !! r = None -> s !! t = None -> r <> t -> s !! p1 = Some (LVec (a ++ [0%Z]) cap) -> s !! p2 = Some (LVec (b ++ [0%Z]) cap2) ->
  (zn (length a + length b) < INT_MAX)%Z -> lfit true (st_plus_body r t p1 p2) s.
Proof.
  intros Hr Ht Hrt H1 H2 Hl. assert (t <> p1) by congruence. assert (t <> p2) by congruence. unfold st_plus_body.
  eapply lfit_then; [eapply copy_new_ok; eassumption|apply q_copy_new|].
  apply lfit_bind.
  - eapply append_fit; [apply lookup_insert|rewrite lookup_insert_ne by congruence; exact H2|congruence|exact Hl].
  - intros x s' _. assert (Hq : quiet (st_copy_new r t ;;; st_destroy t)%wprog) by (apply q_bind; [apply q_copy_new|intros ?; apply q_destroy]). apply Hq.
Qed.
Lemma eq_body_fit s p1 p2 l : s !! p1 = Some l -> (zn (length (l_seq l)) <= INT_MAX)%Z -> lfit true (st_eq_body p1 p2) s.
Proof.
  intros E Hl. unfold st_eq_body. destruct l as [l cap]. eapply lfit_then; [eapply wsize_ok, E|apply q_size|]. cbn [l_seq] in Hl.
  apply lfit_bind; [apply q_size|]. intros m s' _. destruct (negb _); [exact I|]. destruct (Nat.eqb _ 0); [exact I|].
  apply q_eq_loop. lia.
Qed.
Lemma eq_at_fit s t1 t2 p1 p2 l r :
  s !! t1 = None -> s !! t2 = None -> t1 <> t2 -> s !! p1 = Some l -> s !! p2 = Some r -> (zn (length (l_seq l)) <= INT_MAX)%Z ->
  lfit true (st_eq_at t1 t2 p1 p2) s.
Proof.
  intros Ht1 Ht2 Ht H1 H2 Hl. assert (t1 <> p2) by congruence. unfold st_eq_at.
  eapply lfit_then; [eapply copy_new_ok; eassumption|apply q_copy_new|].
  eapply lfit_then; [eapply copy_new_ok; rewrite lookup_insert_ne by congruence; eassumption|apply q_copy_new|].
  apply lfit_bind; [eapply eq_body_fit; [rewrite lookup_insert_ne by congruence; apply lookup_insert|exact Hl]|].
  intros x s' _. assert (Hq : quiet (st_destroy t2 ;;; st_destroy t1 ;;; WRet x)%wprog) by
    (apply q_bind; [apply q_destroy|intros ?; apply q_bind; [apply q_destroy|intros ?; apply q_ret]]). apply Hq.
Qed.
End Quiet.

(** ** One call *)
Ltac sdest :=
  repeat match goal with
  | H : no_str ?s ?id _ <> SUnspec |- _ => unfold no_str in H at 1; destruct (s !! id) eqn:?; [congruence|]
  | H : some_str ?s ?id _ <> SUnspec |- _ => unfold some_str in H at 1; destruct (s !! id) eqn:?; [|congruence]
  | H : with_str ?s ?id _ <> SUnspec |- _ => unfold with_str in H at 1; destruct (s !! id) as [[?l|]|] eqn:?; [|congruence|congruence]
  | H : with_c ?b _ <> SUnspec |- _ => unfold with_c in H at 1; destruct (cstr b) as [[|?c ?l]|] eqn:?; [congruence| |congruence]
  | H : twrel ?s ?ls, E : ?s !! ?id = None |- _ => lazymatch goal with _ : ls !! sv id = None |- _ => fail | _ => pose proof (twrel_none _ _ _ H E) end
  | H : twrel ?s ?ls, E : ?s !! ?id = Some (TLive ?l) |- _ => lazymatch goal with _ : ls !! sv id = Some _ |- _ => fail | _ => destruct (twrel_live _ _ _ _ H E) as [? ?] end
  | H : twrel ?s ?ls, E : ?s !! ?id = Some ?x |- _ => lazymatch goal with _ : ls !! sv id = Some _ |- _ => fail | _ => destruct (twrel_some _ _ _ _ H E) as [? ?] end
  end.
Ltac slk := lk; try (eapply twrel_tmp; [eassumption|lia]); try (unfold sv in *; lia).
Ltac qq := repeat first [simple apply q_ret | simple apply q_destroy | simple apply q_copy_new | simple apply q_move_new | simple apply q_init | simple apply q_move | simple apply q_assign | apply q_bind; [|intros ?]].
Tactic Notation "fcopy" := eapply lfit_then; [eapply copy_new_ok; slk|apply q_copy_new|].
Ltac ffrom := match goal with E : cstr ?buf = Some (?c :: ?cs) |- lfit true (wbind (st_from_c ?t ?buf) _) ?s =>
  let cap := fresh "cap" in let R := fresh "R" in
  destruct (from_c_ok s t buf c cs) as (cap & R); [slk|exact E|]; eapply lfit_then; [exact R|eapply from_c_fit; [slk|exact E|auto]|] end.
Ltac fquiet := let x := fresh in let s := fresh in intros x s _; clear; revert s; match goal with |- forall s, lfit true ?p s => change (quiet p) end; qq.

Lemma use_quiet {X} (p : wprog Z X) ls : quiet p -> lfit true p ls.
Proof. intros H. apply H. Qed.
Ltac sfix Ha := unfold no_str, some_str, with_str, with_c in Ha;
  repeat match goal with
  | E : _ !! _ = _ |- _ => rewrite E in Ha
  | E : cstr _ = _ |- _ => rewrite E in Ha
  end.
Lemma step_fit o s ls : twrel s ls -> allshort ls -> small_text o -> small_strs s -> t_step o s <> SUnspec ->
  (forall r s', t_step o s = SVal (r, s') -> small_strs s') -> lfit true (st_step o) ls.
Proof.
  intros H Hs Ht Hb Hn Ha.
  destruct o; cbn [t_step st_step small_text] in *; try (apply use_quiet; clear; qq; fail).
  all: sdest.
  all: sfix Ha.
  all: try (specialize (Ht _ eq_refl)).
  - (* TLit *) apply lfit_bind; [|fquiet]. eapply from_c_fit; slk.
  - (* TAssignC *) apply lfit_bind; [|fquiet]. unfold st_assign_c. ffrom. apply use_quiet; qq.
  - (* TPush *) apply lfit_bind; [|fquiet]. unfold st_push. eapply lfit_then; [eapply wset_last; eassumption|apply q_set; unfold INT_MIN, INT_MAX; lia|].
    eapply push_fit; [apply lookup_insert|]. specialize (Ha _ _ eq_refl id _ (lookup_insert _ _ _)). rewrite app_length in *. exact Ha.
  - (* TSet *) apply lfit_bind; [|fquiet]. destruct (Z.ltb_spec i 0); [congruence|]. apply q_set. unfold INT_MIN. lia.
  - (* TClear *) apply lfit_bind; [|fquiet]. unfold st_clear. eapply lfit_then; [eapply wclear_ok; eassumption|apply q_clear|].
    eapply lfit_then; [eapply wpush_ok, lookup_insert|eapply push_fit; [apply lookup_insert|cbn; unfold INT_MAX; lia]|apply q_resize].
  - (* TAppend *) apply lfit_bind; [|fquiet]. destruct (Nat.eqb_spec id src); [congruence|].
    specialize (Ha _ _ eq_refl id _ (lookup_insert _ _ _)). rewrite app_length in Ha.
    eapply append_fit; slk; auto.
  - (* TAppendC *) apply lfit_bind; [|fquiet]. specialize (Ha _ _ eq_refl id _ (lookup_insert _ _ _)). rewrite app_length in Ha.
    unfold st_append_c. ffrom. apply lfit_bind; [|fquiet]. eapply append_fit; slk; exact Ha.
  - (* TPlus *) apply lfit_bind; [|fquiet]. specialize (Ha _ _ eq_refl id _ (lookup_insert _ _ _)). rewrite app_length in Ha.
    unfold st_plus. fcopy. fcopy. apply lfit_bind; [|fquiet]. eapply plus_body_fit; slk; exact Ha.
  - (* TPlusCR *) apply lfit_bind; [|fquiet]. specialize (Ha _ _ eq_refl id _ (lookup_insert _ _ _)). rewrite app_length in Ha.
    unfold st_plus_cr. fcopy. fcopy. ffrom. apply lfit_bind; [|fquiet]. eapply plus_body_fit; slk; exact Ha.
  - (* TPlusCL *) apply lfit_bind; [|fquiet]. specialize (Ha _ _ eq_refl id _ (lookup_insert _ _ _)).
    unfold st_plus_cl. fcopy. ffrom. fcopy. apply lfit_bind; [|fquiet]. eapply plus_body_fit; slk; rewrite <- app_length; exact Ha.
  - (* TEq *) apply lfit_bind; [|fquiet]. unfold st_eq. eapply eq_at_fit; slk; match goal with E : ls !! sv a = Some _ |- _ => apply (Hs _ _ E) end.
  - (* TEqCR *) apply lfit_bind; [|fquiet]. unfold st_eq_cr. fcopy. fcopy. ffrom. apply lfit_bind; [|fquiet].
    eapply eq_body_fit; slk; match goal with E : ls !! sv a = Some _ |- _ => apply (Hs _ _ E) end.
  - (* TEqCL *) apply lfit_bind; [|fquiet]. unfold st_eq_cl. fcopy. ffrom. fcopy. apply lfit_bind; [|fquiet].
    eapply eq_body_fit; slk; cbn [l_seq]; rewrite app_length; cbn [length] in *; lia.
  - (* TNe *) apply lfit_bind; [|fquiet]. unfold st_ne. fcopy. fcopy. apply lfit_bind; [|fquiet].
    eapply eq_at_fit; slk; match goal with E : ls !! sv a = Some _ |- _ => apply (Hs _ _ E) end.
  - (* TNeCR *) apply lfit_bind; [|fquiet]. unfold st_ne_cr. fcopy. fcopy. ffrom. apply lfit_bind; [|fquiet].
    eapply eq_at_fit; slk; match goal with E : ls !! sv a = Some _ |- _ => apply (Hs _ _ E) end.
  - (* TNeCL *) apply lfit_bind; [|fquiet]. unfold st_ne_cl. fcopy. ffrom. fcopy. apply lfit_bind; [|fquiet].
    eapply eq_at_fit; slk; cbn [l_seq]; rewrite app_length; cbn [length] in *; lia.
  - (* TSize *) apply use_quiet. clear. unfold st_size. qq. apply q_size.
  - (* TEmpty *) apply use_quiet. clear. unfold st_empty, st_size. qq. apply q_size.
  - (* TBack *) apply use_quiet. clear. unfold st_back. qq. apply q_get. unfold INT_MIN, INT_MAX. lia.
  - (* TFront *) apply use_quiet. clear. qq. apply q_front.
  - (* TGet *) destruct (Z.ltb_spec i 0); [congruence|]. apply lfit_bind; [|fquiet]. apply q_get. unfold INT_MIN. lia.
  - (* TIter *) apply use_quiet. clear. unfold st_iter. qq; [apply q_iter|]. destruct x; [intros ?; exact I|apply q_ret].
  - (* TCstr *) apply use_quiet. clear. unfold st_cstr. qq; [apply q_get; unfold INT_MIN, INT_MAX; lia|apply q_iter].
Qed.

(** ** Histories *)
Lemma ints_arun {A O P} triv (step : O -> wprog A P) o ops (s : lworld A) :
  lrun triv (ints (arun step (o :: ops))) s =
  match lrun triv (ints (step o)) s with
  | Ok (r, s1) => match lrun triv (ints (arun step ops)) s1 with Ok (rs, s2) => Ok (r :: rs, s2) | Abort => Abort | UB => UB | Diverge => Diverge end
  | Abort => Abort | UB => UB | Diverge => Diverge
  end.
Proof.
  cbn [arun]. rewrite ints_bind. destruct (lrun triv (ints (step o)) s) as [[r s1]| | |]; try reflexivity.
  rewrite ints_bind. destruct (lrun triv (ints (arun step ops)) s1) as [[rs s2]| | |]; reflexivity.
Qed.
Lemma int_string_l ops : forall s ls, twrel s ls -> allshort ls -> (forall o, In o ops -> small_text o) ->
  (forall pre post rs s', ops = pre ++ post -> srun t_step pre s = SVal (rs, s') -> small_strs s') ->
  agree twrel (srun t_step ops s) (lrun true (ints (arun st_step ops)) ls).
Proof.
  induction ops as [|o ops IH]; intros s ls H Hs Ht Hb; [exists ls; auto|]. rewrite ints_arun.
  pose proof (st_step_agree o s ls H) as Hag. cbn [srun].
  destruct (t_step o s) as [[r s1]| |] eqn:E; [| |exact I].
  - assert (Hf : lfit true (st_step o) ls).
    { eapply step_fit; eauto; [apply Ht; left; reflexivity|apply (Hb [] (o :: ops) [] s); reflexivity|congruence|].
      intros r' s' E'. rewrite E in E'. injection E' as <- <-. apply (Hb [o] ops [r] s1); [reflexivity|]. cbn [srun]. rewrite E. reflexivity. }
    destruct (lfit_safe _ _ _ Hs Hf) as [Hsafe Hshort]. rewrite lsafe_run by exact Hsafe.
    destruct Hag as (ls1 & E1 & H1). rewrite E1. specialize (IH s1 ls1 H1 (Hshort _ _ E1)).
    assert (Hg : agree twrel (srun t_step ops s1) (lrun true (ints (arun st_step ops)) ls1)).
    { apply IH; [intros o' Ho; apply Ht; right; exact Ho|]. intros pre post rs s' -> Hr.
      apply (Hb (o :: pre) post (r :: rs) s'); [reflexivity|]. cbn [srun]. rewrite E, Hr. reflexivity. }
    destruct (srun t_step ops s1) as [[rs s2]| |]; [|cbn in Hg |- *; rewrite Hg; reflexivity|exact I].
    destruct Hg as (ls2 & -> & H2). exists ls2. auto.
  - assert (Hf : lfit true (st_step o) ls).
    { eapply step_fit; eauto; [apply Ht; left; reflexivity|apply (Hb [] (o :: ops) [] s); reflexivity|congruence|].
      intros r' s' E'. rewrite E in E'. discriminate. }
    destruct (lfit_safe _ _ _ Hs Hf) as [Hsafe _]. rewrite lsafe_run by exact Hsafe. cbn in Hag. rewrite Hag. reflexivity.
Qed.
Theorem int_string_history : forall ops, (forall o, In o ops -> small_text o) ->
  (forall pre post rs s, ops = pre ++ post -> srun t_step pre ∅ = SVal (rs, s) -> small_strs s) ->
  match srun t_step ops ∅ with
  | SVal (rs, s) => exists w, wrun true (ints (arun st_step ops)) world_init = Ok (rs, w) /\ storage_ok w
  | SAbort => wrun true (ints (arun st_step ops)) world_init = Abort
  | SUnspec => True
  end.
Proof.
  intros ops H1 H2.
  assert (Ha : agree twrel (srun t_step ops ∅) (lrun true (ints (arun st_step ops)) ∅)).
  { apply int_string_l; auto; [apply twrel_empty|]. intros id l E. rewrite lookup_empty in E. discriminate. }
  pose proof (wrun_agree true twrel _ _ Ha) as H.
  destruct (srun t_step ops ∅) as [[rs s]| |]; auto. destruct H as (w & ? & _ & ?). eauto.
Qed.

(** A way to compute that all strings are short. *)
Definition few (s : gmap nat tstr) : bool :=
  forallb (fun p => match snd p with TLive l => Nat.ltb (length l) 100 | TMoved => true end) (map_to_list s).
Lemma few_small s : few s = true -> small_strs s.
Proof.
  intros H id l E. unfold few in H. rewrite forallb_forall in H. apply elem_of_map_to_list, elem_of_list_In in E.
  specialize (H _ E). cbn [snd] in H. apply Nat.ltb_lt in H. unfold INT_MAX. lia.
Qed.
Lemma few_prefixes ops :
  forallb (fun k => match srun t_step (firstn k ops) ∅ with SVal (_, s) => few s | _ => true end) (seq 0 (S (length ops))) = true ->
  forall pre post rs s, ops = pre ++ post -> srun t_step pre ∅ = SVal (rs, s) -> small_strs s.
Proof.
  intros H pre post rs s -> Hr. rewrite forallb_forall in H. specialize (H (length pre)).
  rewrite (firstn_app (length pre)), Nat.sub_diag, firstn_all, firstn_O, app_nil_r, Hr in H. apply few_small, H, in_seq. rewrite app_length. lia.
Qed.
