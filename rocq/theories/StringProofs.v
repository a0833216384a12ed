(** Proofs about BasicString. *)
From Verif Require Import Base VectorModel VectorSpec VecProg VectorProofs VectorWorld VectorExtra Adapter LRun StringModel StringSpec.

(** Equality of maps built from inserts and deletes at decidable keys. *)
Ltac map_solve :=
  apply map_eq; let i := fresh "i" in intros i;
  repeat match goal with
  | |- context [<[?a := _]> _ !! i] =>
      destruct (decide (a = i)); [subst i; rewrite lookup_insert|rewrite lookup_insert_ne by assumption]
  | |- context [delete ?a _ !! i] =>
      destruct (decide (a = i)); [subst i; rewrite lookup_delete|rewrite lookup_delete_ne by assumption]
  | |- context [<[?a := _]> _ !! ?j] => first [rewrite (lookup_insert_ne _ a j) by (unfold sv in *; lia) | rewrite (lookup_insert _ j)]
  | |- context [delete ?a _ !! ?j] => first [rewrite (lookup_delete_ne _ a j) by (unfold sv in *; lia) | rewrite (lookup_delete _ j)]
  end; try congruence; try (unfold sv in *; lia).

(** Lookup in such maps. *)
Ltac lk := repeat first
  [ eassumption | apply lookup_insert | apply lookup_delete
  | rewrite lookup_insert_ne by (unfold sv in *; lia)
  | rewrite lookup_delete_ne by (unfold sv in *; lia) ].

Section Runs.
Implicit Types s : lworld Z.
Local Notation run := (lrun true).

Lemma wset_last s v l x cap c : s !! v = Some (LVec (l ++ [x]) cap) ->
  run (wset v (-1) c) s = Ok (tt, <[v := LVec (l ++ [c]) cap]> s).
Proof.
  intros Hs. unfold wset, wunit. cbn [lrun lw_step lv_step]. unfold lwith. rewrite Hs. cbn [l_seq l_cap].
  unfold at_index, py_index. rewrite app_length. cbn [length]. change (0 <=? -1)%Z with false. cbv iota.
  destruct (Z.leb_spec (- Z.of_nat (length l + 1)) (-1)); [|lia].
  replace (Z.to_nat (Z.of_nat (length l + 1) + -1)) with (length l) by lia.
  rewrite insert_app_r_alt, Nat.sub_diag by lia. reflexivity.
Qed.
Lemma init_ok s v : s !! v = None -> run (st_init v) s = Ok (tt, <[v := LVec [0%Z] 15]> s).
Proof.
  intros Hs. unfold st_init. erewrite lrun_bind_ok by (apply wfill_ok; [assumption|lia]).
  erewrite wresize_ok by apply lookup_insert. rewrite insert_insert. reflexivity.
Qed.
Lemma assign_ok s v u x y : s !! v = Some y -> s !! u = Some x -> run (st_assign v u) s = Ok (tt, <[v := x]> s).
Proof.
  intros Hv Hu. unfold st_assign. destruct (Nat.eqb_spec v u) as [->|Hne].
  - cbn [lrun]. rewrite insert_id by assumption. reflexivity.
  - erewrite wassign_ok; eauto.
Qed.
Lemma move_ok s v u x y : s !! v = Some y -> s !! u = Some x -> v <> u ->
  run (st_move v u) s = Ok (tt, <[u := LVec [] 0]> (<[v := x]> s)).
Proof. intros Hv Hu Hne. unfold st_move. destruct (Nat.eqb_spec v u); [congruence|]. erewrite wmove_ok; eauto. Qed.
Lemma copy_new_ok s v u x : s !! v = None -> s !! u = Some x -> run (st_copy_new v u) s = Ok (tt, <[v := x]> s).
Proof.
  intros Hv Hu. assert (v <> u) by congruence. unfold st_copy_new. rewrite (lrun_bind_ok _ _ _ _ _ _ (init_ok _ _ Hv)).
  erewrite assign_ok by (first [apply lookup_insert|rewrite lookup_insert_ne; eassumption]). rewrite insert_insert. reflexivity.
Qed.
Lemma move_new_ok s v u x : s !! v = None -> s !! u = Some x ->
  run (st_move_new v u) s = Ok (tt, <[u := LVec [] 0]> (<[v := x]> s)).
Proof.
  intros Hv Hu. assert (v <> u) by congruence. unfold st_move_new. rewrite (lrun_bind_ok _ _ _ _ _ _ (init_ok _ _ Hv)).
  erewrite move_ok by (first [apply lookup_insert|rewrite lookup_insert_ne; eassumption|assumption]).
  rewrite insert_insert. reflexivity.
Qed.
Lemma destroy_ok s v x : s !! v = Some x -> run (st_destroy v) s = Ok (tt, delete v s).
Proof. intros Hs. eapply wdestroy_ok; eauto. Qed.

Lemma read_ok rest : forall s v l cap cs, s !! v = Some (LVec l cap) -> cstr rest = Some cs ->
  exists cap', run (st_read v rest) s = Ok (tt, <[v := LVec (l ++ cs) cap']> s).
Proof.
  induction rest as [|c rest IH]; intros s v l cap cs Hs Hc; [discriminate|]. cbn [cstr st_read] in *.
  destruct (Z.eqb_spec c 0).
  - injection Hc as <-. exists cap. rewrite app_nil_r, insert_id by assumption. reflexivity.
  - destruct (cstr rest) as [cs'|]; [|discriminate]. injection Hc as <-. lgo wpush_ok.
    edestruct IH as (cap' & ->); [apply lookup_insert|reflexivity|].
    exists cap'. rewrite insert_insert, <- app_assoc. reflexivity.
Qed.
Lemma from_c_ok s v buf c cs : s !! v = None -> cstr buf = Some (c :: cs) ->
  exists cap, run (st_from_c v buf) s = Ok (tt, <[v := LVec ((c :: cs) ++ [0%Z]) cap]> s).
Proof.
  intros Hs Hc. destruct buf as [|c' rest]; [discriminate|]. cbn [cstr] in Hc.
  destruct (Z.eqb_spec c' 0); [discriminate|]. destruct (cstr rest) as [cs'|] eqn:E; [|discriminate]. injection Hc as -> ->.
  unfold st_from_c. rewrite (lrun_bind_ok _ _ _ _ _ _ (init_ok _ _ Hs)).
  erewrite lrun_bind_ok by (eapply (wset_last _ _ []), lookup_insert). rewrite insert_insert.
  edestruct (read_ok rest) as (cap' & Hr); [apply lookup_insert|exact E|].
  rewrite (lrun_bind_ok _ _ _ _ _ _ Hr), insert_insert. erewrite wpush_ok by apply lookup_insert.
  rewrite insert_insert. eexists. reflexivity.
Qed.
Lemma assign_c_ok s t v buf c cs y : s !! t = None -> s !! v = Some y -> cstr buf = Some (c :: cs) ->
  exists cap, run (st_assign_c t v buf) s = Ok (tt, <[v := LVec ((c :: cs) ++ [0%Z]) cap]> s).
Proof.
  intros Ht Hv Hc. assert (v <> t) by congruence. destruct (from_c_ok _ _ _ _ _ Ht Hc) as (cap & Hf). exists cap.
  unfold st_assign_c. rewrite (lrun_bind_ok _ _ _ _ _ _ Hf).
  erewrite lrun_bind_ok by (eapply move_ok; [rewrite lookup_insert_ne by congruence; exact Hv|apply lookup_insert|assumption]).
  erewrite destroy_ok by apply lookup_insert. f_equal. f_equal. map_solve.
Qed.

Lemma append_loop_ok : forall k f s v u l cap ul ucap i,
  s !! v = Some (LVec l cap) -> s !! u = Some (LVec ul ucap) -> v <> u -> i + k = length ul -> k < f ->
  exists cap', run (st_append_loop f v u i) s = Ok (tt, <[v := LVec (l ++ drop i ul) cap']> s).
Proof.
  induction k as [|k IH]; intros f s v u l cap ul ucap i Hv Hu Hne Hi Hf; (destruct f as [|f]; [lia|]); cbn [st_append_loop]; lgo wsize_ok.
  - destruct (Nat.ltb_spec i (length ul)); [lia|]. exists cap. cbn [lrun]. rewrite drop_ge, app_nil_r, insert_id by (assumption || lia). reflexivity.
  - destruct (Nat.ltb_spec i (length ul)); [|lia]. destruct (lookup_lt_is_Some_2 ul i) as [a Ha]; [lia|].
    erewrite lrun_bind_ok by (eapply wpush_elem_ok; [exact Hv|exact Hu|exact Ha|left; assumption]).
    edestruct (IH f) as (cap' & ->); [apply lookup_insert|rewrite lookup_insert_ne by assumption; exact Hu|assumption|lia|lia|].
    exists cap'. rewrite insert_insert, <- app_assoc. rewrite (drop_S ul a i Ha). reflexivity.
Qed.
Lemma append_ok s v u a cap b ucap : s !! v = Some (LVec (a ++ [0%Z]) cap) -> s !! u = Some (LVec (b ++ [0%Z]) ucap) -> v <> u ->
  exists cap', run (st_append v u) s = Ok (tt, <[v := LVec ((a ++ b) ++ [0%Z]) cap']> s).
Proof.
  intros Hv Hu Hne. unfold st_append. lgo wcap_ok. lgo wsize_ok. lgo wsize_ok. rewrite !app_length. cbn [length].
  destruct (Nat.eqb_spec (length a + 1 + (length b + 1)) 0); [lia|].
  set (m := length a + 1 + (length b + 1)).
  assert (exists cap1, run (if Nat.ltb cap (m - 1) then wunit (OResize v (m - 1)) else WRet tt) s =
     Ok (tt, <[v := LVec (a ++ [0%Z]) cap1]> s)) as (cap1 & Hr).
  { destruct (Nat.ltb cap (m - 1)).
    - erewrite wresize_ok by exact Hv. rewrite firstn_all2 by (rewrite app_length; simpl; lia). eauto.
    - exists cap. cbn [lrun]. rewrite insert_id by assumption. reflexivity. }
  rewrite (lrun_bind_ok _ _ _ _ _ _ Hr).
  assert (exists c b', b ++ [0%Z] = c :: b') as (c & b' & Eb) by (destruct b; simpl; eauto).
  assert ((b ++ [0%Z]) !! 0 = Some c) as Hc by (rewrite Eb; reflexivity).
  change 0%Z with (Z.of_nat 0) at 1. erewrite lrun_bind_ok by (eapply wget_ok; [rewrite lookup_insert_ne by assumption; exact Hu|exact Hc]).
  erewrite lrun_bind_ok by (eapply wset_last, lookup_insert). rewrite insert_insert.
  edestruct (append_loop_ok (length b) (S (m + cap))) as (cap' & ->);
    [apply lookup_insert|rewrite lookup_insert_ne by assumption; exact Hu|assumption|rewrite app_length; simpl; lia|unfold m; lia|].
  exists cap'. rewrite insert_insert, <- !app_assoc. do 4 f_equal. cbn [app]. f_equal. rewrite Eb. reflexivity.
Qed.
Lemma append_c_ok s t v buf a cap c cs : s !! t = None -> s !! v = Some (LVec (a ++ [0%Z]) cap) -> cstr buf = Some (c :: cs) ->
  exists cap', run (st_append_c t v buf) s = Ok (tt, <[v := LVec ((a ++ c :: cs) ++ [0%Z]) cap']> s).
Proof.
  intros Ht Hv Hc. assert (v <> t) by congruence. destruct (from_c_ok _ _ _ _ _ Ht Hc) as (cap1 & Hf).
  unfold st_append_c. rewrite (lrun_bind_ok _ _ _ _ _ _ Hf).
  edestruct (append_ok (<[t := LVec ((c :: cs) ++ [0%Z]) cap1]> s) v t) as (cap' & Ha);
    [rewrite lookup_insert_ne by congruence; exact Hv|apply lookup_insert|assumption|].
  rewrite (lrun_bind_ok _ _ _ _ _ _ Ha). exists cap'. erewrite destroy_ok by (rewrite lookup_insert_ne by congruence; apply lookup_insert).
  f_equal. f_equal. map_solve.
Qed.

Lemma plus_body_ok s r t p1 p2 a cap b cap2 :
  s !! r = None -> s !! t = None -> r <> t -> s !! p1 = Some (LVec (a ++ [0%Z]) cap) -> s !! p2 = Some (LVec (b ++ [0%Z]) cap2) ->
  exists cap', run (st_plus_body r t p1 p2) s = Ok (tt, <[r := LVec ((a ++ b) ++ [0%Z]) cap']> s).
Proof.
  intros Hr Ht Hrt H1 H2. assert (t <> p1) by congruence. assert (t <> p2) by congruence. unfold st_plus_body.
  erewrite lrun_bind_ok by (eapply copy_new_ok; eassumption).
  edestruct (append_ok (<[t := LVec (a ++ [0%Z]) cap]> s) t p2) as (cap' & Ha);
    [apply lookup_insert|rewrite lookup_insert_ne by congruence; exact H2|congruence|].
  rewrite (lrun_bind_ok _ _ _ _ _ _ Ha), insert_insert. exists cap'.
  erewrite lrun_bind_ok by (eapply copy_new_ok; [rewrite lookup_insert_ne by congruence; exact Hr|apply lookup_insert]).
  erewrite destroy_ok by (rewrite lookup_insert_ne by congruence; apply lookup_insert).
  f_equal. f_equal. map_solve.
Qed.

Lemma eq_loop_ok : forall k i s p1 p2 a cap b cap2,
  s !! p1 = Some (LVec (a ++ [0%Z]) cap) -> s !! p2 = Some (LVec (b ++ [0%Z]) cap2) ->
  length a = length b -> i + k = length a ->
  run (st_eq_loop k i p1 p2) s = Ok (bool_decide (drop i a = drop i b), s).
Proof.
  induction k as [|k IH]; intros i s p1 p2 a cap b cap2 H1 H2 Hl Hi; cbn [st_eq_loop].
  - rewrite !drop_ge by lia. reflexivity.
  - destruct (lookup_lt_is_Some_2 a i) as [x Hx]; [lia|]. destruct (lookup_lt_is_Some_2 b i) as [y Hy]; [lia|].
    erewrite lrun_bind_ok by (eapply wget_ok; [exact H1|apply lookup_app_l_Some; exact Hx]).
    erewrite lrun_bind_ok by (eapply wget_ok; [exact H2|apply lookup_app_l_Some; exact Hy]).
    rewrite (drop_S a x i Hx), (drop_S b y i Hy). destruct (Z.eqb_spec x y) as [->|Hxy].
    + erewrite IH by (eauto; lia). do 2 f_equal. apply bool_decide_ext. split; [congruence|]. intros [=]. assumption.
    + rewrite bool_decide_false by congruence. reflexivity.
Qed.
Lemma eq_body_ok s p1 p2 a cap b cap2 :
  s !! p1 = Some (LVec (a ++ [0%Z]) cap) -> s !! p2 = Some (LVec (b ++ [0%Z]) cap2) ->
  run (st_eq_body p1 p2) s = Ok (list_eqb a b, s).
Proof.
  intros H1 H2. unfold st_eq_body. lgo wsize_ok. lgo wsize_ok. rewrite !app_length. cbn [length]. unfold list_eqb.
  destruct (Nat.eqb_spec (length a + 1) (length b + 1)); simpl negb; cbv iota.
  - destruct (Nat.eqb_spec (length a + 1) 0); [lia|]. erewrite eq_loop_ok by (eauto; lia). reflexivity.
  - rewrite bool_decide_false by (intros ->; lia). reflexivity.
Qed.
Lemma eq_at_ok s t1 t2 p1 p2 a cap b cap2 :
  s !! t1 = None -> s !! t2 = None -> t1 <> t2 ->
  s !! p1 = Some (LVec (a ++ [0%Z]) cap) -> s !! p2 = Some (LVec (b ++ [0%Z]) cap2) ->
  run (st_eq_at t1 t2 p1 p2) s = Ok (list_eqb a b, s).
Proof.
  intros Ht1 Ht2 Ht H1 H2. assert (t1 <> p2) by congruence. unfold st_eq_at.
  erewrite lrun_bind_ok by (eapply copy_new_ok; eassumption).
  erewrite lrun_bind_ok by (eapply copy_new_ok; rewrite lookup_insert_ne by congruence; eassumption).
  erewrite lrun_bind_ok by (eapply eq_body_ok; [rewrite lookup_insert_ne by congruence; apply lookup_insert|apply lookup_insert]).
  erewrite lrun_bind_ok by (eapply destroy_ok, lookup_insert).
  erewrite lrun_bind_ok by (eapply destroy_ok; rewrite lookup_delete_ne, lookup_insert_ne by congruence; apply lookup_insert).
  cbn [lrun]. do 2 f_equal. map_solve.
Qed.
End Runs.

(** ** Histories *)
Definition twrel (s : gmap nat tstr) (ls : lworld Z) : Prop :=
  (forall t, t < 8 -> ls !! t = None) /\
  forall id, match s !! id with
             | Some (TLive l) => exists cap, ls !! sv id = Some (LVec (l ++ [0%Z]) cap)
             | Some TMoved => exists v, ls !! sv id = Some v
             | None => ls !! sv id = None
             end.
Lemma twrel_tmp s ls t : twrel s ls -> t < 8 -> ls !! t = None.
Proof. intros [H _]. apply H. Qed.
Lemma twrel_live s ls id l : twrel s ls -> s !! id = Some (TLive l) -> exists cap, ls !! sv id = Some (LVec (l ++ [0%Z]) cap).
Proof. intros [_ H] E. specialize (H id). rewrite E in H. exact H. Qed.
Lemma twrel_some s ls id x : twrel s ls -> s !! id = Some x -> exists v, ls !! sv id = Some v.
Proof. intros [_ H] E. specialize (H id). rewrite E in H. destruct x; destruct H; eauto. Qed.
Lemma twrel_none s ls id : twrel s ls -> s !! id = None -> ls !! sv id = None.
Proof. intros [_ H] E. specialize (H id). rewrite E in H. exact H. Qed.
Lemma twrel_insert s ls id l cap : twrel s ls -> twrel (<[id := TLive l]> s) (<[sv id := LVec (l ++ [0%Z]) cap]> ls).
Proof.
  intros [Ht H]. split.
  - intros t Hlt. rewrite lookup_insert_ne by (unfold sv; lia). auto.
  - intros j. destruct (decide (id = j)) as [<-|Hne].
    + rewrite !lookup_insert. eauto.
    + rewrite !lookup_insert_ne by (unfold sv; lia). apply H.
Qed.
Lemma twrel_moved s ls id v : twrel s ls -> twrel (<[id := TMoved]> s) (<[sv id := v]> ls).
Proof.
  intros [Ht H]. split.
  - intros t Hlt. rewrite lookup_insert_ne by (unfold sv; lia). auto.
  - intros j. destruct (decide (id = j)) as [<-|Hne].
    + rewrite !lookup_insert. eauto.
    + rewrite !lookup_insert_ne by (unfold sv; lia). apply H.
Qed.
Lemma twrel_delete s ls id : twrel s ls -> twrel (delete id s) (delete (sv id) ls).
Proof.
  intros [Ht H]. split.
  - intros t Hlt. rewrite lookup_delete_ne by (unfold sv; lia). auto.
  - intros j. destruct (decide (id = j)) as [<-|Hne].
    + rewrite !lookup_delete. reflexivity.
    + rewrite !lookup_delete_ne by (unfold sv; lia). apply H.
Qed.

Ltac tdest :=
  repeat match goal with
  | |- agree _ (no_str ?s ?id _) _ => unfold no_str at 1; destruct (s !! id) eqn:?; [exact I|]
  | |- agree _ (some_str ?s ?id _) _ => unfold some_str at 1; destruct (s !! id) eqn:?; [|exact I]
  | |- agree _ (with_str ?s ?id _) _ => unfold with_str at 1; destruct (s !! id) as [[?l|]|] eqn:?; [|exact I|exact I]
  | |- agree _ (with_c ?b _) _ => unfold with_c at 1; destruct (cstr b) as [[|?c ?l]|] eqn:?; [exact I| |exact I]
  | H : twrel ?s ?ls, E : ?s !! ?id = None |- _ => lazymatch goal with _ : ls !! sv id = None |- _ => fail | _ => pose proof (twrel_none _ _ _ H E) end
  | H : twrel ?s ?ls, E : ?s !! ?id = Some (TLive ?l) |- _ => lazymatch goal with _ : ls !! sv id = Some _ |- _ => fail | _ => destruct (twrel_live _ _ _ _ H E) as [? ?] end
  | H : twrel ?s ?ls, E : ?s !! ?id = Some ?x |- _ => lazymatch goal with _ : ls !! sv id = Some _ |- _ => fail | _ => destruct (twrel_some _ _ _ _ H E) as [? ?] end
  end.
Tactic Notation "tgo" uconstr(H) := erewrite lrun_bind_ok by (eapply H; lk; try (eapply twrel_tmp; [eassumption|lia]); try (unfold sv in *; lia)).
Ltac tex H := let c := fresh "cap'" in let E := fresh "E" in
  edestruct H as (c & E); [..|rewrite (lrun_bind_ok _ _ _ _ _ _ E); clear E]; lk; try (eapply twrel_tmp; [eassumption|lia]); try (unfold sv in *; lia).

Lemma last_snoc {X} (l : list X) : match last l with Some c => exists l', l = l' ++ [c] | None => l = [] end.
Proof.
  induction l as [|x l IH]; [reflexivity|]. destruct l as [|y l]; [exists []; reflexivity|].
  change (last (x :: y :: l)) with (last (y :: l)). destruct (last (y :: l)); [|discriminate].
  destruct IH as (l' & ->). exists (x :: l'). reflexivity.
Qed.

Lemma st_step_agree o s ls : twrel s ls -> agree twrel (t_step o s) (lrun true (st_step o) ls).
Proof.
  intros H. destruct o; cbn [t_step st_step]; tdest.
  - (* TNew *) tgo init_ok. eexists. split; [reflexivity|]. apply (twrel_insert _ _ _ []). assumption.
  - (* TLit *) tex from_c_ok. eexists. split; [reflexivity|]. apply twrel_insert. assumption.
  - (* TCopyNew *) tgo copy_new_ok. eexists. split; [reflexivity|]. apply twrel_insert. assumption.
  - (* TMoveNew *) tgo move_new_ok. eexists. split; [reflexivity|]. apply twrel_moved, twrel_insert. assumption.
  - (* TAssign *) tgo assign_ok. eexists. split; [reflexivity|]. apply twrel_insert. assumption.
  - (* TMoveAssign *) destruct (Nat.eqb_spec id src) as [<-|Hne].
    + unfold st_move. rewrite Nat.eqb_refl. eexists. split; [reflexivity|assumption].
    + tgo move_ok. eexists. split; [reflexivity|]. apply twrel_moved, twrel_insert. assumption.
  - (* TAssignC *) tex assign_c_ok. eexists. split; [reflexivity|]. apply twrel_insert. assumption.
  - (* TDestroy *) tgo destroy_ok. eexists. split; [reflexivity|]. apply twrel_delete. assumption.
  - (* TPush *) unfold st_push. rewrite lrun_bind. tgo wset_last. erewrite wpush_ok by apply lookup_insert.
    eexists. split; [reflexivity|]. rewrite insert_insert. apply twrel_insert. assumption.
  - (* TSet *) destruct (Z.ltb_spec i 0); [exact I|]. rewrite <- (Z2Nat.id i) at 4 by assumption.
    unfold st_set. destruct (Z.ltb_spec i (Z.of_nat (length l))).
    + erewrite lrun_bind_ok by (eapply wset_ok; [eassumption|rewrite app_length; lia]).
      eexists. split; [reflexivity|]. rewrite insert_app_l by lia. apply twrel_insert. assumption.
    + destruct (Z.eqb_spec i (Z.of_nat (length l))); [exact I|]. rewrite lrun_bind.
      erewrite wset_abort by (first [eassumption|rewrite app_length; simpl; lia]). reflexivity.
  - (* TClear *) unfold st_clear. rewrite lrun_bind. tgo wclear_ok. tgo wpush_ok. erewrite wresize_ok by apply lookup_insert.
    eexists. split; [reflexivity|]. rewrite !insert_insert. apply (twrel_insert _ _ _ []). assumption.
  - (* TAppend *) destruct (Nat.eqb_spec id src); [exact I|]. tex append_ok.
    eexists. split; [reflexivity|]. apply twrel_insert. assumption.
  - (* TAppendC *) tex append_c_ok. eexists. split; [reflexivity|]. apply twrel_insert. assumption.
  - (* TPlus *) unfold st_plus. rewrite lrun_bind. tgo copy_new_ok. tgo copy_new_ok.
    tex plus_body_ok. tgo destroy_ok. erewrite destroy_ok by lk. eexists. split; [reflexivity|].
    replace (delete 0 _) with (<[sv id := LVec ((l ++ l0) ++ [0%Z]) cap']> ls); [apply twrel_insert; assumption|].
    pose proof (twrel_tmp _ _ 0 H ltac:(lia)). pose proof (twrel_tmp _ _ 1 H ltac:(lia)). map_solve.
  - (* TPlusCR *) unfold st_plus_cr. rewrite lrun_bind. tgo copy_new_ok. tgo copy_new_ok. tex from_c_ok.
    tex plus_body_ok. tgo destroy_ok. tgo destroy_ok. erewrite destroy_ok by lk. eexists. split; [reflexivity|].
    replace (delete 3 _) with (<[sv id := LVec ((l ++ c :: l0) ++ [0%Z]) cap'0]> ls); [apply twrel_insert; assumption|].
    pose proof (twrel_tmp _ _ 0 H ltac:(lia)). pose proof (twrel_tmp _ _ 1 H ltac:(lia)). pose proof (twrel_tmp _ _ 3 H ltac:(lia)). map_solve.
  - (* TPlusCL *) unfold st_plus_cl. rewrite lrun_bind. tgo copy_new_ok. tex from_c_ok. tgo copy_new_ok.
    tex plus_body_ok. tgo destroy_ok. tgo destroy_ok. erewrite destroy_ok by lk. eexists. split; [reflexivity|].
    replace (delete 3 _) with (<[sv id := LVec (((c :: l) ++ l0) ++ [0%Z]) cap'0]> ls); [apply (twrel_insert _ _ _ (c :: l ++ l0)); assumption|].
    pose proof (twrel_tmp _ _ 0 H ltac:(lia)). pose proof (twrel_tmp _ _ 1 H ltac:(lia)). pose proof (twrel_tmp _ _ 3 H ltac:(lia)). map_solve.
  - (* TEq *) unfold st_eq. tgo eq_at_ok. eexists. split; [reflexivity|assumption].
  - (* TEqCR *) unfold st_eq_cr. rewrite lrun_bind. tgo copy_new_ok. tgo copy_new_ok. tex from_c_ok.
    tgo eq_body_ok. tgo destroy_ok. tgo destroy_ok. tgo destroy_ok. cbn [lrun]. eexists. split; [reflexivity|].
    replace (delete 2 _) with ls; [assumption|].
    pose proof (twrel_tmp _ _ 0 H ltac:(lia)). pose proof (twrel_tmp _ _ 1 H ltac:(lia)). pose proof (twrel_tmp _ _ 2 H ltac:(lia)). map_solve.
  - (* TEqCL *) unfold st_eq_cl. rewrite lrun_bind. tgo copy_new_ok. tex from_c_ok. tgo copy_new_ok.
    tgo eq_body_ok. tgo destroy_ok. tgo destroy_ok. tgo destroy_ok. cbn [lrun]. eexists. split; [reflexivity|].
    replace (delete 2 _) with ls; [assumption|].
    pose proof (twrel_tmp _ _ 0 H ltac:(lia)). pose proof (twrel_tmp _ _ 1 H ltac:(lia)). pose proof (twrel_tmp _ _ 2 H ltac:(lia)). map_solve.
  - (* TNe *) unfold st_ne. rewrite lrun_bind. tgo copy_new_ok. tgo copy_new_ok.
    tgo eq_at_ok. tgo destroy_ok. tgo destroy_ok. cbn [lrun]. eexists. split; [reflexivity|].
    replace (delete 2 _) with ls; [assumption|].
    pose proof (twrel_tmp _ _ 2 H ltac:(lia)). pose proof (twrel_tmp _ _ 3 H ltac:(lia)). map_solve.
  - (* TNeCR *) unfold st_ne_cr. rewrite lrun_bind. tgo copy_new_ok. tgo copy_new_ok. tex from_c_ok.
    tgo eq_at_ok. tgo destroy_ok. tgo destroy_ok. tgo destroy_ok. cbn [lrun]. eexists. split; [reflexivity|].
    replace (delete 4 _) with ls; [assumption|].
    pose proof (twrel_tmp _ _ 2 H ltac:(lia)). pose proof (twrel_tmp _ _ 3 H ltac:(lia)). pose proof (twrel_tmp _ _ 4 H ltac:(lia)). map_solve.
  - (* TNeCL *) unfold st_ne_cl. rewrite lrun_bind. tgo copy_new_ok. tex from_c_ok. tgo copy_new_ok.
    tgo eq_at_ok. tgo destroy_ok. tgo destroy_ok. tgo destroy_ok. cbn [lrun]. eexists. split; [reflexivity|].
    replace (delete 4 _) with ls; [assumption|].
    pose proof (twrel_tmp _ _ 2 H ltac:(lia)). pose proof (twrel_tmp _ _ 3 H ltac:(lia)). pose proof (twrel_tmp _ _ 4 H ltac:(lia)). map_solve.
  - (* TSize *) unfold st_size. rewrite lrun_bind. lgo wsize_ok. cbn [lrun]. eexists. split; [|eassumption].
    rewrite app_length. cbn [length]. do 4 f_equal. lia.
  - (* TEmpty *) unfold st_empty, st_size. destruct (Z.ltb_spec (Z.of_nat (length l)) (2 ^ 64)); [|exact I].
    rewrite lrun_bind, lrun_bind. lgo wsize_ok. cbn [lrun]. eexists. split; [|eassumption]. rewrite app_length. cbn [length].
    do 3 f_equal. rewrite Z.mod_small by lia. destruct (Nat.eqb_spec (length l) 0); [apply Z.eqb_eq|apply Z.eqb_neq]; lia.
  - (* TBack *) pose proof (last_snoc l) as Hl. destruct (last l) as [c|]; [|exact I]. destruct Hl as (l' & ->).
    unfold st_back, wget, wval. cbn [wbind lrun lw_step lv_step]. unfold lwith. rewrite H0. cbn [l_seq].
    unfold at_index, py_index. rewrite !app_length. cbn [length]. change (0 <=? -2)%Z with false. cbv iota.
    destruct (Z.leb_spec (- Z.of_nat (length l' + 1 + 1)) (-2)); [|lia].
    replace (Z.to_nat (Z.of_nat (length l' + 1 + 1) + -2)) with (length l') by lia.
    rewrite <- app_assoc, nth_error_app2, Nat.sub_diag by lia. cbn. eexists. split; [reflexivity|assumption].
  - (* TFront *) unfold st_front, wval. cbn [wbind lrun lw_step lv_step]. unfold lwith. rewrite H0. cbn [l_seq].
    destruct l; cbn; eexists; (split; [reflexivity|assumption]).
  - (* TGet *) destruct (Z.ltb_spec i 0); [exact I|]. unfold st_get. rewrite <- (Z2Nat.id i) at 2 by assumption.
    destruct ((l ++ [0%Z]) !! Z.to_nat i) eqn:E.
    + lgo wget_ok. eexists. split; [reflexivity|assumption].
    + rewrite lrun_bind. erewrite wget_abort by (first [eassumption|apply lookup_ge_None; exact E]). reflexivity.
  - (* TIter *) unfold st_iter. rewrite lrun_bind. lgo witer_ok.
    destruct (l ++ [0%Z]) eqn:E; [destruct l; discriminate|]. rewrite <- E, removelast_last.
    eexists. split; [reflexivity|assumption].
  - (* TCstr *) unfold st_cstr. rewrite lrun_bind. change 0%Z with (Z.of_nat 0) at 2.
    destruct (lookup_lt_is_Some_2 (l ++ [0%Z]) 0) as [c Hc]; [rewrite app_length; simpl; lia|].
    lgo wget_ok. erewrite witer_ok by eassumption. eexists. split; [reflexivity|assumption].
Qed.

Lemma twrel_empty : twrel ∅ ∅.
Proof. split; intros; rewrite !lookup_empty; reflexivity. Qed.

Lemma string_history_l ops : agree twrel (srun t_step ops ∅) (lrun true (arun st_step ops) ∅).
Proof. apply arun_agree; [exact st_step_agree|exact twrel_empty]. Qed.

Theorem string_history : forall ops,
  match srun t_step ops ∅ with
  | SVal (rs, s) => exists w, wrun true (arun st_step ops) world_init = Ok (rs, w) /\ storage_ok w
  | SAbort => wrun true (arun st_step ops) world_init = Abort
  | SUnspec => True
  end.
Proof.
  intros ops. pose proof (wrun_agree true twrel _ _ (string_history_l ops)) as H.
  destruct (srun t_step ops ∅) as [[rs s]| |]; auto. destruct H as (w & ? & _ & ?). eauto.
Qed.

(** ** The defects *)
Lemma append_self_loop : forall k f (s : lworld Z) v l cap i,
  s !! v = Some (LVec l cap) -> length l + k = cap -> i < length l -> k < f ->
  lrun true (st_append_loop f v v i) s = UB.
Proof.
  induction k as [|k IH]; intros f s v l cap i Hs Hk Hi Hf; (destruct f as [|f]; [lia|]); cbn [st_append_loop];
    lgo wsize_ok; (destruct (Nat.ltb_spec i (length l)); [|lia]).
  - rewrite lrun_bind. rewrite Nat.add_0_r in Hk. subst cap. erewrite wpush_own_ub by eassumption. reflexivity.
  - destruct (lookup_lt_is_Some_2 l i Hi) as [a Ha].
    erewrite lrun_bind_ok by (eapply wpush_elem_ok; [exact Hs|exact Hs|exact Ha|right; lia]).
    eapply IH; [apply lookup_insert| | |lia].
    + unfold cap_push. destruct (Nat.eqb_spec (length l) cap); [lia|]. rewrite app_length. simpl. lia.
    + rewrite app_length. simpl. lia.
Qed.
Lemma append_self_ub (s : lworld Z) v c a cap : s !! v = Some (LVec ((c :: a) ++ [0%Z]) cap) -> lrun true (st_append v v) s = UB.
Proof.
  intros Hv. unfold st_append. lgo wcap_ok. lgo wsize_ok. lgo wsize_ok. set (l := (c :: a) ++ [0%Z]) in *.
  assert (length l = S (S (length a))) as Hl by (unfold l; rewrite app_length; simpl; lia).
  destruct (Nat.eqb_spec (length l + length l) 0); [lia|]. set (m := length l + length l) in *.
  assert (exists cap1, m - 1 <= cap1 <= m + cap /\ lrun true (if Nat.ltb cap (m - 1) then wunit (OResize v (m - 1)) else WRet tt) s =
     Ok (tt, <[v := LVec l cap1]> s)) as (cap1 & Hcap & Hr).
  { destruct (Nat.ltb_spec cap (m - 1)).
    - exists (m - 1). split; [lia|]. erewrite wresize_ok by exact Hv. rewrite firstn_all2 by lia. reflexivity.
    - exists cap. split; [lia|]. cbn [lrun]. rewrite insert_id by assumption. reflexivity. }
  rewrite (lrun_bind_ok _ _ _ _ _ _ Hr).
  change 0%Z with (Z.of_nat 0) at 1. erewrite lrun_bind_ok by (eapply wget_ok; [apply lookup_insert|reflexivity]).
  erewrite lrun_bind_ok by (eapply wset_last, lookup_insert). rewrite insert_insert.
  assert (length ((c :: a) ++ [c]) = length l) as Hl' by (unfold l; rewrite !app_length; reflexivity).
  eapply append_self_loop with (k := cap1 - length l); [apply lookup_insert| | |]; rewrite ?Hl'; unfold m in *; lia.
Qed.
Lemma append_self_empty (s : lworld Z) v cap : s !! v = Some (LVec [0%Z] cap) ->
  exists cap', lrun true (st_append v v) s = Ok (tt, <[v := LVec [0%Z] cap']> s).
Proof.
  intros Hv. unfold st_append. lgo wcap_ok. lgo wsize_ok. lgo wsize_ok. cbn [length Nat.add Nat.eqb].
  assert (exists cap1, lrun true (if Nat.ltb cap (2 - 1) then wunit (OResize v (2 - 1)) else WRet tt) s =
     Ok (tt, <[v := LVec [0%Z] cap1]> s)) as (cap1 & Hr).
  { destruct (Nat.ltb cap (2 - 1)).
    - erewrite wresize_ok by exact Hv. eexists. reflexivity.
    - exists cap. cbn [lrun]. rewrite insert_id by assumption. reflexivity. }
  rewrite (lrun_bind_ok _ _ _ _ _ _ Hr). exists cap1.
  change 0%Z with (Z.of_nat 0) at 1. erewrite lrun_bind_ok by (eapply wget_ok; [apply lookup_insert|reflexivity]).
  erewrite lrun_bind_ok by (eapply (wset_last _ _ []), lookup_insert). cbn [st_append_loop].
  erewrite lrun_bind_ok by (eapply wsize_ok, lookup_insert). cbn. rewrite insert_insert. reflexivity.
Qed.

(** s += s, after every history. *)
Theorem self_append : forall ops rs s id c l,
  srun t_step ops ∅ = SVal (rs, s) -> s !! id = Some (TLive (c :: l)) ->
  wrun true (arun st_step (ops ++ [TAppend id id])) world_init = UB.
Proof.
  intros ops rs s id c l E Hs.
  destruct (history_then _ _ _ _ _ _ _ _ (string_history_l ops) E) as (ls & HR & Hthen).
  destruct (twrel_live _ _ _ _ HR Hs) as (cap & Hls). specialize (Hthen [TAppend id id]).
  cbn [arun st_step] in Hthen. rewrite !lrun_bind, (append_self_ub _ _ _ _ _ Hls) in Hthen. exact Hthen.
Qed.

(** A moved-from string, after every history. *)
Theorem moved_from : forall ops rs s id src l,
  srun t_step ops ∅ = SVal (rs, s) -> s !! src = Some (TLive l) -> s !! id = None ->
  (exists w, wrun true (arun st_step (ops ++ [TMoveNew id src; TSize src; TEmpty src])) world_init =
    Ok (rs ++ [TUnit; TNum (2 ^ 64 - 1); TBool false], w)) /\
  wrun true (arun st_step (ops ++ [TMoveNew id src; TPush src 65])) world_init = UB.
Proof.
  intros ops rs s id src l E Hs Hid.
  destruct (history_then _ _ _ _ _ _ _ _ (string_history_l ops) E) as (ls & HR & Hthen).
  destruct (twrel_live _ _ _ _ HR Hs) as (cap & Hls). pose proof (twrel_none _ _ _ HR Hid) as Hnone.
  split.
  - specialize (Hthen [TMoveNew id src; TSize src; TEmpty src]).
    assert (forall ls', ls' !! sv src = Some (LVec [] 0) ->
      lrun true (arun st_step [TSize src; TEmpty src]) ls' = Ok ([TNum (2 ^ 64 - 1); TBool false], ls')) as Htail.
    { intros ls' Hl'. cbn [arun st_step]. unfold st_empty, st_size. repeat (rewrite lrun_bind; cbn [lrun]).
      rewrite (wsize_ok _ _ _ _ _ Hl'). repeat (rewrite lrun_bind; cbn [lrun]).
      rewrite (wsize_ok _ _ _ _ _ Hl'). cbn [lrun]. reflexivity. }
    change (arun st_step [TMoveNew id src; TSize src; TEmpty src]) with
      (r <- st_step (TMoveNew id src) ;; rs <- arun st_step [TSize src; TEmpty src] ;; WRet (r :: rs))%wprog in Hthen.
    rewrite lrun_bind in Hthen. cbn [st_step] in Hthen. rewrite lrun_bind, (move_new_ok _ _ _ _ Hnone Hls) in Hthen.
    cbn [lrun] in Hthen. rewrite lrun_bind, Htail in Hthen by apply lookup_insert. cbn [lrun] in Hthen.
    destruct Hthen as (w & Hw & _). eauto.
  - specialize (Hthen [TMoveNew id src; TPush src 65]). cbn [arun st_step] in Hthen.
    repeat (rewrite lrun_bind in Hthen; cbn [lrun] in Hthen). rewrite (move_new_ok _ _ _ _ Hnone Hls) in Hthen.
    repeat (rewrite lrun_bind in Hthen; cbn [lrun] in Hthen). unfold st_push in Hthen. rewrite lrun_bind in Hthen.
    unfold wset, wunit in Hthen. cbn [lrun lw_step lv_step] in Hthen. unfold lwith in Hthen. rewrite lookup_insert in Hthen.
    exact Hthen.
Qed.

(** String("") and the like, after every history. *)
Theorem empty_literal : forall ops rs s id,
  srun t_step ops ∅ = SVal (rs, s) -> s !! id = None ->
  wrun true (arun st_step (ops ++ [TLit id [0%Z]])) world_init = UB /\
  (forall src l, s !! src = Some (TLive l) ->
     wrun true (arun st_step (ops ++ [TAssignC src [0%Z]])) world_init = UB /\
     wrun true (arun st_step (ops ++ [TAppendC src [0%Z]])) world_init = UB /\
     wrun true (arun st_step (ops ++ [TEqCR src [0%Z]])) world_init = UB) /\
  forall rest cs, cstr rest = Some cs ->
    exists w, wrun true (arun st_step (ops ++ [TLit id (0%Z :: rest); TIter id])) world_init = Ok (rs ++ [TUnit; TChars (0%Z :: cs)], w).
Proof.
  intros ops rs s id E Hid.
  destruct (history_then _ _ _ _ _ _ _ _ (string_history_l ops) E) as (ls & HR & Hthen).
  pose proof (twrel_none _ _ _ HR Hid) as Hnone.
  assert (forall v (ls' : lworld Z), ls' !! v = None -> lrun true (st_from_c v [0%Z]) ls' = UB) as Hub.
  { intros v ls' Hv. unfold st_from_c. rewrite (lrun_bind_ok _ _ _ _ _ _ (init_ok _ _ Hv)).
    erewrite lrun_bind_ok by (eapply (wset_last _ _ []), lookup_insert). reflexivity. }
  split_and!.
  - specialize (Hthen [TLit id [0%Z]]). cbn [arun st_step] in Hthen. rewrite !lrun_bind, (Hub _ _ Hnone) in Hthen. exact Hthen.
  - intros src l Hsrc. destruct (twrel_live _ _ _ _ HR Hsrc) as (cap & Hls). split_and!.
    + specialize (Hthen [TAssignC src [0%Z]]). cbn [arun st_step] in Hthen. unfold st_assign_c in Hthen.
      rewrite !lrun_bind, (Hub 0) in Hthen by (eapply twrel_tmp; [eassumption|lia]). exact Hthen.
    + specialize (Hthen [TAppendC src [0%Z]]). cbn [arun st_step] in Hthen. unfold st_append_c in Hthen.
      rewrite !lrun_bind, (Hub 0) in Hthen by (eapply twrel_tmp; [eassumption|lia]). exact Hthen.
    + specialize (Hthen [TEqCR src [0%Z]]). cbn [arun st_step] in Hthen. unfold st_eq_cr in Hthen.
      rewrite !lrun_bind in Hthen. erewrite copy_new_ok in Hthen by (first [exact Hls|eapply twrel_tmp; [eassumption|lia]]).
      rewrite lrun_bind in Hthen. erewrite copy_new_ok in Hthen by (lk; try (eapply twrel_tmp; [eassumption|lia])).
      rewrite lrun_bind, Hub in Hthen by (lk; try (eapply twrel_tmp; [eassumption|lia])). exact Hthen.
  - intros rest cs Hc. specialize (Hthen [TLit id (0%Z :: rest); TIter id]).
    assert (exists cap, lrun true (st_from_c (sv id) (0%Z :: rest)) ls = Ok (tt, <[sv id := LVec ((0%Z :: cs) ++ [0%Z]) cap]> ls)) as (cap & Hf).
    { unfold st_from_c. rewrite (lrun_bind_ok _ _ _ _ _ _ (init_ok _ _ Hnone)).
      erewrite lrun_bind_ok by (eapply (wset_last _ _ []), lookup_insert). rewrite insert_insert.
      edestruct (read_ok rest) as (cap' & Hr); [apply lookup_insert|exact Hc|].
      rewrite (lrun_bind_ok _ _ _ _ _ _ Hr), insert_insert. erewrite wpush_ok by apply lookup_insert.
      rewrite insert_insert. eexists. reflexivity. }
    cbn [arun st_step] in Hthen. repeat (rewrite lrun_bind in Hthen; cbn [lrun] in Hthen). rewrite Hf in Hthen.
    repeat (rewrite lrun_bind in Hthen; cbn [lrun] in Hthen). unfold st_iter in Hthen. rewrite lrun_bind in Hthen.
    erewrite witer_ok in Hthen by apply lookup_insert. cbn [app lrun] in Hthen.
    change (0%Z :: cs ++ [0%Z]) with ((0%Z :: cs) ++ [0%Z]) in Hthen. rewrite removelast_last in Hthen.
    cbn [lrun] in Hthen. destruct Hthen as (w & Hw & _). eauto.
Qed.

Theorem self_append_empty : forall ops rs s id,
  srun t_step ops ∅ = SVal (rs, s) -> s !! id = Some (TLive []) ->
  exists w, wrun true (arun st_step (ops ++ [TAppend id id; TCstr id])) world_init = Ok (rs ++ [TUnit; TChars [0%Z]], w) /\ storage_ok w.
Proof.
  intros ops rs s id E Hs.
  destruct (history_then _ _ _ _ _ _ _ _ (string_history_l ops) E) as (ls & HR & Hthen).
  destruct (twrel_live _ _ _ _ HR Hs) as (cap & Hls). destruct (append_self_empty _ _ _ Hls) as (cap' & Ha).
  specialize (Hthen [TAppend id id; TCstr id]). cbn [arun st_step] in Hthen.
  repeat (rewrite lrun_bind in Hthen; cbn [lrun] in Hthen). rewrite Ha in Hthen.
  repeat (rewrite lrun_bind in Hthen; cbn [lrun] in Hthen). unfold st_cstr in Hthen. rewrite lrun_bind in Hthen.
  change (wget (sv id) 0) with (wget (A := Z) (sv id) (Z.of_nat 0)) in Hthen.
  erewrite wget_ok in Hthen by (first [apply lookup_insert|reflexivity]).
  erewrite witer_ok in Hthen by apply lookup_insert. cbn [lrun] in Hthen. destruct Hthen as (w & Hw & _ & Hst). eauto.
Qed.

(** ==, != and + after every history. *)
Theorem eq_plus : forall ops rs s a b x y r,
  srun t_step ops ∅ = SVal (rs, s) -> s !! a = Some (TLive x) -> s !! b = Some (TLive y) -> s !! r = None ->
  exists e w, (e = true <-> x = y) /\
    wrun true (arun st_step (ops ++ [TEq a b; TNe a b; TPlus r a b; TCstr r; TIter a; TIter b])) world_init =
    Ok (rs ++ [TBool e; TBool (negb e); TUnit; TChars (x ++ y ++ [0%Z]); TChars x; TChars y], w) /\ storage_ok w.
Proof.
  intros ops rs s a b x y r E Ha Hb Hr.
  pose proof (string_history (ops ++ [TEq a b; TNe a b; TPlus r a b; TCstr r; TIter a; TIter b])) as H.
  rewrite srun_app, E in H.
  assert (r <> a) by congruence. assert (r <> b) by congruence.
  repeat (cbn [srun t_step] in H; unfold with_str, no_str in H;
          rewrite ?lookup_insert, ?lookup_insert_ne, ?Ha, ?Hb, ?Hr in H by assumption).
  destruct H as (w & Hw & Hst). exists (list_eqb x y), w. split_and!; [|rewrite Hw; rewrite <- app_assoc; reflexivity|exact Hst].
  unfold list_eqb. apply bool_decide_eq_true.
Qed.
