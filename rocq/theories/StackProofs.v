(** Proofs about Stack and XValueStack. *)
From Verif Require Import Base VectorModel VectorSpec VecProg VectorProofs VectorWorld VectorExtra Adapter StackModel StackSpec.

(** Run a program at the list level whose vector lookups are among the hypotheses. *)
Ltac lstep := cbn [lrun wbind lw_step lv_step wunit wval wsize wempty witer wcap wget wset wpush_elem wassert];
  unfold lwith, lnew; rewrite ?lookup_insert;
  repeat match goal with H : _ !! _ = _ |- _ => rewrite H end;
  rewrite ?lookup_insert; cbn [lrun wbind l_seq l_cap].

Section StackP.
Context {A : Type} (triv : bool).

Definition k_rel (s : gmap nat (list A)) (ls : lworld A) : Prop :=
  forall id, l_seq <$> ls !! id = @rev A <$> s !! id.

Lemma k_some s ls id l : k_rel s ls -> s !! id = Some l -> exists c, ls !! id = Some (LVec (rev l) c).
Proof.
  intros H Hs. specialize (H id). rewrite Hs in H. destruct (ls !! id) as [[l' c]|]; [|discriminate].
  simpl in H. injection H as ->. eauto.
Qed.
Lemma k_none s ls id : k_rel s ls -> s !! id = None -> ls !! id = None.
Proof. intros H Hs. specialize (H id). rewrite Hs in H. destruct (ls !! id); [discriminate|reflexivity]. Qed.
Lemma k_insert s ls id l c : k_rel s ls -> k_rel (<[id := l]> s) (<[id := LVec (rev l) c]> ls).
Proof.
  intros H j. destruct (decide (id = j)) as [->|Hne]; [rewrite !lookup_insert; reflexivity|].
  rewrite !lookup_insert_ne by assumption. apply H.
Qed.
Lemma k_insert' s ls id l l' c : k_rel s ls -> l' = rev l -> k_rel (<[id := l]> s) (<[id := LVec l' c]> ls).
Proof. intros H ->. apply k_insert, H. Qed.

Lemma nth_error_rev_last (a : A) l : nth_error (rev (a :: l)) (length (rev (a :: l)) - 1) = Some a.
Proof.
  simpl. rewrite app_length. simpl. rewrite Nat.add_sub, nth_error_app2, Nat.sub_diag by lia. reflexivity.
Qed.

Lemma rev_nil_match {X} (a : A) l (x : X) (y : X) : match rev (a :: l) with [] => x | _ => y end = y.
Proof. simpl. destruct (rev l); reflexivity. Qed.

Lemma copyable_rev (l : list A) : copyable triv (rev l) = triv || (length l =? 0).
Proof. unfold copyable. rewrite rev_length. reflexivity. Qed.

Lemma st_pop_run (ls : lworld A) id l a c :
  ls !! id = Some (LVec (l ++ [a]) c) ->
  exists c', lrun triv (st_pop id) ls = Ok (tt, <[id := LVec l c']> ls).
Proof.
  intros H. unfold st_pop. lstep. rewrite app_length. simpl. rewrite Nat.add_sub.
  rewrite nth_error_app2, Nat.sub_diag by lia. cbn [nth_error]. lstep.
  destruct (l ++ [a]) eqn:E; [destruct l; discriminate|]. rewrite <- E, removelast_last.
  eexists. reflexivity.
Qed.
Lemma st_pop_abort (ls : lworld A) id c : ls !! id = Some (LVec [] c) -> lrun triv (@st_pop A id) ls = Abort.
Proof. intros H. unfold st_pop. lstep. reflexivity. Qed.
Lemma st_top_run (ls : lworld A) id l a c : ls !! id = Some (LVec (l ++ [a]) c) -> lrun triv (st_top id) ls = Ok (a, ls).
Proof.
  intros H. unfold st_top. lstep. rewrite app_length. simpl. rewrite Nat.add_sub.
  rewrite nth_error_app2, Nat.sub_diag by lia. reflexivity.
Qed.
Lemma st_top_abort (ls : lworld A) id c : ls !! id = Some (LVec [] c) -> lrun triv (@st_top A id) ls = Abort.
Proof. intros H. unfold st_top. lstep. reflexivity. Qed.
Lemma st_push_run (ls : lworld A) id l a c : ls !! id = Some (LVec l c) ->
  exists c', lrun triv (st_push id a) ls = Ok (tt, <[id := LVec (l ++ [a]) c']> ls).
Proof. intros H. unfold st_push. lstep. eexists. reflexivity. Qed.

Lemma st_step_agree o s ls : k_rel s ls -> agree k_rel (k_step triv o s) (lrun triv (st_step o) ls).
Proof.
  intros H.
  destruct o as [id|id src|id src|id src|id src|id|id a|id|id|id|id|id|id]; cbn [k_step st_step];
    destruct (s !! id) as [l|] eqn:Hs; try exact I;
    try (destruct (s !! src) as [u|] eqn:Hu; try exact I);
    try (destruct (k_some _ _ _ _ H Hs) as [c Hl]);
    try (pose proof (k_none _ _ _ H Hs) as Hl);
    try (destruct (k_some _ _ _ _ H Hu) as [cu Hlu]).
  - lstep. eexists. split; [reflexivity|]. apply k_insert', eq_refl. exact H.
  - lstep. rewrite copyable_rev.
    destruct (triv || (length u =? 0)); [|exact I]. eexists. split; [reflexivity|]. apply k_insert, H.
  - lstep. eexists. split; [reflexivity|]. apply (k_insert _ _ src []), k_insert, H.
  - lstep. rewrite copyable_rev.
    destruct (id =? src); [exists ls; auto|].
    destruct (triv || (length u =? 0)); [|exact I]. eexists. split; [reflexivity|]. apply k_insert, H.
  - lstep. destruct (id =? src); [exists ls; auto|].
    eexists. split; [reflexivity|]. apply (k_insert _ _ src []), k_insert, H.
  - lstep. eexists. split; [reflexivity|]. intros j. destruct (decide (id = j)) as [->|Hne].
    + rewrite !lookup_delete. reflexivity.
    + rewrite !lookup_delete_ne by assumption. apply H.
  - destruct (st_push_run ls id _ a c Hl) as [c' E]. rewrite (lrun_bind_ok _ _ _ _ _ _ E). simpl.
    eexists. split; [reflexivity|]. apply k_insert', eq_refl. exact H.
  - destruct l as [|a l].
    + red. rewrite lrun_bind, (st_pop_abort _ _ _ Hl). reflexivity.
    + simpl in Hl. destruct (st_pop_run ls id _ _ c Hl) as [c' E]. rewrite (lrun_bind_ok _ _ _ _ _ _ E). simpl.
      eexists. split; [reflexivity|]. apply k_insert, H.
  - destruct l as [|a l].
    + red. rewrite lrun_bind, (st_top_abort _ _ _ Hl). reflexivity.
    + simpl in Hl. rewrite (lrun_bind_ok _ _ _ _ _ _ (st_top_run ls id _ _ c Hl)). simpl.
      eexists. split; [reflexivity|]. exact H.
  - lstep. rewrite rev_length. exists ls. auto.
  - lstep. destruct l as [|a l]; simpl; [exists ls; auto|]. destruct (rev l ++ [a]) eqn:E; [destruct (rev l); discriminate|].
    exists ls. auto.
  - unfold st_clear. lstep. eexists. split; [reflexivity|]. apply k_insert', eq_refl. exact H.
  - lstep. exists ls. auto.
Qed.

Lemma stack_history ops :
  match srun (k_step triv) ops ∅ with
  | SVal (rs, s) => exists w : world A, wrun triv (arun st_step ops) world_init = Ok (rs, w) /\
      (forall id, contents w id = @rev A <$> s !! id) /\ storage_ok w
  | SAbort => wrun triv (arun st_step ops) world_init = Abort
  | SUnspec => True
  end.
Proof.
  pose proof (arun_agree triv st_step (k_step triv) k_rel st_step_agree ops ∅ ∅) as H.
  pose proof (wrun_agree triv k_rel _ _ (H (fun id => eq_refl))) as Hw. clear H.
  destruct (srun (k_step triv) ops ∅) as [[rs s]| |]; auto.
  destruct Hw as (w & Hrun & HR & Hst). exists w. split_and!; auto. intros id. rewrite <- (HR id).
  unfold view. rewrite map_lookup_imap. unfold contents.
  destruct (w_objs w !! id) as [v|] eqn:Hv; [|reflexivity]. simpl.
  destruct (v_iter v (w_mem w)) as [[l m]| | |]; reflexivity.
Qed.

(** *** XValueStack *)
Context (cmp eqb : A -> A -> bool).

Inductive Enc : list A -> list A -> A -> Prop :=
| enc_nil g : Enc [] [] g
| enc_save l c x v : Enc l c x -> l = [] \/ cmp v x = true -> Enc (v :: l) (c ++ [x; v]) v
| enc_keep l c x v : Enc l c x -> l <> [] -> cmp v x = false -> eqb x v = false -> Enc (v :: l) (c ++ [v]) x.

Lemma enc_empty l c x : Enc l c x -> (c = [] <-> l = []).
Proof. intros []; split; intros E; auto; try discriminate; destruct c0; discriminate. Qed.

Hypothesis cmp_irrefl : forall a, cmp a a = false.
Hypothesis cmp_trans : forall a b c, cmp a b = true -> cmp b c = true -> cmp a c = true.
Hypothesis eqb_refl : forall a, eqb a a = true.

Lemma enc_extremum l c x : Enc l c x -> l <> [] -> is_extremum cmp x l.
Proof.
  induction 1 as [g|l c x v H IH Hor|l c x v H IH Hne Hc He]; intros Hl; [congruence| |].
  - split; [left; reflexivity|]. intros y [->|Hy]; [apply cmp_irrefl|].
    destruct (cmp y v) eqn:E; [|reflexivity].
    destruct Hor as [->|Hlt]; [destruct Hy|].
    destruct IH as [_ IH]; [destruct l; [destruct Hy|congruence]|].
    rewrite <- (IH y Hy). symmetry. eapply cmp_trans; eassumption.
  - destruct (IH Hne) as [Hin Hmin]. split; [right; exact Hin|]. intros y [->|Hy]; auto.
Qed.

Lemma xs_push_run ls c cap l x a :
  ls !! 0 = Some (LVec c cap) -> Enc l c x ->
  (forall y, is_extremum cmp y l -> eqb y a = false) ->
  exists c' cap' x', lrun triv (xs_push cmp 0 a x) ls = Ok (x', <[0 := LVec c' cap']> ls) /\ Enc (a :: l) c' x'.
Proof.
  intros H He Hno. unfold xs_push. rewrite lrun_bind. lstep.
  destruct (orb (match c with [] => true | _ => false end) (cmp a x)) eqn:E.
  - rewrite lrun_bind, lrun_bind. destruct (st_push_run ls 0 c x cap H) as [c1 ->].
    cbn [lrun]. rewrite lrun_bind.
    destruct (st_push_run (<[0:=LVec (c ++ [x]) c1]> ls) 0 (c ++ [x]) a c1 (lookup_insert _ _ _)) as [c2 ->].
    rewrite <- app_assoc, insert_insert. simpl. eexists (c ++ [x; a]), c2, a. split; [reflexivity|].
    apply enc_save; [exact He|]. apply orb_true_iff in E as [E|E]; [|auto].
    left. apply (enc_empty _ _ _ He). destruct c; [reflexivity|discriminate].
  - rewrite lrun_bind. cbn [lrun]. rewrite lrun_bind. destruct (st_push_run ls 0 c a cap H) as [c1 ->].
    simpl. eexists (c ++ [a]), c1, x. split; [reflexivity|]. apply orb_false_iff in E as [E1 E2].
    assert (Hl : l <> []) by (intros E; apply (enc_empty _ _ _ He) in E; subst; discriminate).
    apply enc_keep; auto. apply Hno. eapply enc_extremum; eauto.
Qed.

Lemma xs_pop_run ls c cap l x a :
  ls !! 0 = Some (LVec c cap) -> Enc (a :: l) c x ->
  exists c' cap' x', lrun triv (xs_pop eqb 0 x) ls = Ok (x', <[0 := LVec c' cap']> ls) /\ Enc l c' x'.
Proof.
  intros H He. unfold xs_pop. inversion He as [|l0 c0 x0 v H0 Hor|l0 c0 x0 v H0 Hne Hc Heq]; subst.
  - replace (c0 ++ [x0; x]) with ((c0 ++ [x0]) ++ [x]) in * by (rewrite <- app_assoc; reflexivity).
    rewrite (lrun_bind_ok _ _ _ _ _ _ (st_top_run ls 0 _ _ cap H)).
    destruct (st_pop_run ls 0 _ _ cap H) as [c1 E]. rewrite (lrun_bind_ok _ _ _ _ _ _ E), eqb_refl.
    rewrite (lrun_bind_ok _ _ _ _ _ _ (st_top_run (<[0:=LVec (c0 ++ [x0]) c1]> ls) 0 c0 x0 c1 (lookup_insert _ _ _))).
    destruct (st_pop_run (<[0:=LVec (c0 ++ [x0]) c1]> ls) 0 c0 x0 c1 (lookup_insert _ _ _)) as [c2 E2].
    rewrite (lrun_bind_ok _ _ _ _ _ _ E2), insert_insert. simpl. eauto 6.
  - rewrite (lrun_bind_ok _ _ _ _ _ _ (st_top_run ls 0 _ _ cap H)).
    destruct (st_pop_run ls 0 _ _ cap H) as [c1 E]. rewrite (lrun_bind_ok _ _ _ _ _ _ E), Heq. simpl. eauto 6.
Qed.

Lemma enc_top l c x a : Enc (a :: l) c x -> exists c', c = c' ++ [a].
Proof.
  intros He. inversion He as [|l0 c0 x0 v H0 Hor|l0 c0 x0 v H0 Hne Hc Heq]; subst; [|eauto].
  exists (c0 ++ [x0]). rewrite <- app_assoc. reflexivity.
Qed.

Lemma xs_run_agree ops : forall ls c cap l x,
  ls !! 0 = Some (LVec c cap) -> Enc l c x -> no_repeat cmp eqb ops l ->
  exists rs, xspec cmp ops l rs /\
    match rs with
    | Some rs => exists x' ls' c' cap', lrun triv (xs_run cmp eqb 0 ops x) ls = Ok ((rs, x'), ls') /\
        ls' !! 0 = Some (LVec c' cap') /\ Enc (xfinal ops l) c' x'
    | None => lrun triv (xs_run cmp eqb 0 ops x) ls = Abort
    end.
Proof.
  induction ops as [|o ops IH]; intros ls c cap l x H He Hn.
  - exists (Some []). split; [reflexivity|]. simpl. exists x, ls, c, cap. auto.
  - assert (Hgo : forall r ls1 c1 cap1 l1 x1,
      lrun triv (xs_step cmp eqb 0 o x) ls = Ok ((r, x1), ls1) ->
      ls1 !! 0 = Some (LVec c1 cap1) -> Enc l1 c1 x1 -> no_repeat cmp eqb ops l1 ->
      exists rs1, xspec cmp ops l1 rs1 /\
        match option_map (cons r) rs1 with
        | Some rs => exists x' ls' c' cap', lrun triv (xs_run cmp eqb 0 (o :: ops) x) ls = Ok ((rs, x'), ls') /\
            ls' !! 0 = Some (LVec c' cap') /\ Enc (xfinal ops l1) c' x'
        | None => lrun triv (xs_run cmp eqb 0 (o :: ops) x) ls = Abort
        end).
    { intros r ls1 c1 cap1 l1 x1 Hs H1 He1 Hn1. destruct (IH ls1 c1 cap1 l1 x1 H1 He1 Hn1) as (rs1 & Hsp & Hr).
      exists rs1. split; [exact Hsp|]. cbn [xs_run]. rewrite (lrun_bind_ok _ _ _ _ _ _ Hs), lrun_bind.
      cbn [fst snd]. destruct rs1 as [rs1|]; cbn [option_map].
      - destruct Hr as (x' & ls' & c' & cap' & -> & Hl & Henc). simpl. exists x', ls', c', cap'. auto.
      - rewrite Hr. reflexivity. }
    destruct o as [a| | | | |]; cbn [xspec no_repeat] in *.
    + destruct Hn as [Hno Hn]. destruct (xs_push_run ls c cap l x a H He Hno) as (c1 & cap1 & x1 & Hrun & He1).
      destruct (Hgo RUnit (<[0 := LVec c1 cap1]> ls) c1 cap1 (a :: l) x1) as (rs1 & Hsp & Hr); auto.
      { cbn [xs_step]. rewrite (lrun_bind_ok _ _ _ _ _ _ Hrun). reflexivity. }
      { apply lookup_insert. }
      eexists. split; [exists rs1; split; [exact Hsp|reflexivity]|]. exact Hr.
    + destruct l as [|a l].
      * exists None. split; [reflexivity|]. cbn [xs_run xs_step]. unfold xs_pop.
        destruct (enc_empty _ _ _ He) as [_ Hc]. rewrite (Hc eq_refl) in H.
        rewrite !lrun_bind, (st_top_abort _ _ _ H). reflexivity.
      * destruct (xs_pop_run ls c cap l x a H He) as (c1 & cap1 & x1 & Hrun & He1).
        destruct (Hgo RUnit (<[0 := LVec c1 cap1]> ls) c1 cap1 l x1) as (rs1 & Hsp & Hr); auto.
        { cbn [xs_step]. rewrite (lrun_bind_ok _ _ _ _ _ _ Hrun). reflexivity. }
        { apply lookup_insert. }
        eexists. split; [exists rs1; split; [exact Hsp|reflexivity]|]. exact Hr.
    + destruct l as [|a l].
      * exists None. split; [reflexivity|]. cbn [xs_run xs_step].
        destruct (enc_empty _ _ _ He) as [_ Hc]. rewrite (Hc eq_refl) in H.
        rewrite !lrun_bind, (st_top_abort _ _ _ H). reflexivity.
      * destruct (enc_top _ _ _ _ He) as [c0 ->].
        destruct (Hgo (RVal a) ls (c0 ++ [a]) cap (a :: l) x) as (rs1 & Hsp & Hr); auto.
        { cbn [xs_step]. rewrite (lrun_bind_ok _ _ _ _ _ _ (st_top_run ls 0 _ _ cap H)). reflexivity. }
        eexists. split; [exists rs1; split; [exact Hsp|reflexivity]|]. exact Hr.
    + destruct (Hgo (RVal x) ls c cap l x) as (rs1 & Hsp & Hr); auto.
      eexists. split; [exists x, rs1; split_and!; [eapply enc_extremum, He|exact Hsp|reflexivity]|]. exact Hr.
    + destruct (Hgo (RBool (match l with [] => true | _ => false end)) ls c cap l x) as (rs1 & Hsp & Hr); auto.
      { cbn [xs_step]. lstep. destruct (enc_empty _ _ _ He) as [E1 E2].
        destruct c as [|a0 c]; [rewrite (E1 eq_refl); reflexivity|].
        destruct l; [discriminate (E2 eq_refl)|reflexivity]. }
      eexists. split; [exists rs1; split; [exact Hsp|reflexivity]|]. exact Hr.
    + destruct (Hgo RUnit (<[0 := LVec [] 0]> ls) [] 0 [] x) as (rs1 & Hsp & Hr); auto.
      { cbn [xs_step]. unfold st_clear. lstep. reflexivity. }
      { apply lookup_insert. }
      { constructor. }
      eexists. split; [exists rs1; split; [exact Hsp|reflexivity]|]. exact Hr.
Qed.

Lemma xs_history_run (g : A) ops :
  lrun triv (xs_history cmp eqb g ops) ∅ =
    match lrun triv (xs_run cmp eqb 0 ops g) (<[0 := LVec [] 0]> ∅) with
    | Ok (r, s) => Ok (fst r, s) | Abort => Abort | UB => UB | Diverge => Diverge end.
Proof.
  unfold xs_history. rewrite lrun_bind. cbn [lrun wunit lw_step lv_step]. unfold lnew. rewrite lookup_empty.
  cbn [lrun]. rewrite lrun_bind. destruct (lrun triv (xs_run cmp eqb 0 ops g) _) as [[r s]| | |]; reflexivity.
Qed.

Lemma xs_run_app ops1 ops2 : forall x ls rs1 x1 ls1,
  lrun triv (xs_run cmp eqb 0 ops1 x) ls = Ok ((rs1, x1), ls1) ->
  lrun triv (xs_run cmp eqb 0 (ops1 ++ ops2) x) ls =
    match lrun triv (xs_run cmp eqb 0 ops2 x1) ls1 with
    | Ok ((rs2, x2), ls2) => Ok ((rs1 ++ rs2, x2), ls2) | Abort => Abort | UB => UB | Diverge => Diverge end.
Proof.
  induction ops1 as [|o ops1 IH]; intros x ls rs1 x1 ls1 H.
  - simpl in *. injection H as <- <- <-. destruct (lrun triv (xs_run cmp eqb 0 ops2 x) ls) as [[[]]| | |]; reflexivity.
  - cbn [xs_run app] in *. rewrite lrun_bind in *.
    destruct (lrun triv (xs_step cmp eqb 0 o x) ls) as [[[r x2] ls2]| | |]; try discriminate.
    cbn [fst snd] in *. rewrite lrun_bind in *.
    destruct (lrun triv (xs_run cmp eqb 0 ops1 x2) ls2) as [[[rs3 x3] ls3]| | |] eqn:E; try discriminate.
    simpl in H. injection H as <- <- <-. rewrite (IH _ _ _ _ _ E).
    destruct (lrun triv (xs_run cmp eqb 0 ops2 x3) ls3) as [[[rs4 x4] ls4]| | |]; reflexivity.
Qed.

Lemma xstack_history (g : A) ops :
  no_repeat cmp eqb ops [] ->
  exists rs, xspec cmp ops [] rs /\
    match rs with
    | Some rs => exists w, wrun triv (xs_history cmp eqb g ops) world_init = Ok (rs, w) /\ storage_ok w
    | None => wrun triv (xs_history cmp eqb g ops) world_init = Abort
    end.
Proof.
  intros Hn.
  destruct (xs_run_agree ops (<[0 := LVec [] 0]> ∅) [] 0 [] g (lookup_insert _ _ _) (enc_nil g) Hn) as (rs & Hsp & Hr).
  exists rs. split; [exact Hsp|].
  pose proof (program_from_scratch triv (xs_history cmp eqb g ops)) as Hp.
  rewrite xs_history_run in Hp. destruct rs as [rs|].
  - destruct Hr as (x' & ls' & c' & cap' & Hr & _). rewrite Hr in Hp. simpl in Hp. destruct Hp as (w & Hw & _ & Hst). eauto.
  - rewrite Hr in Hp. exact Hp.
Qed.

(** A repeated extremum: pushing it once more and popping loses the element
    below it, for every state the no-repeat histories reach. *)
Lemma repeat_loses ls c a cap l x :
  ls !! 0 = Some (LVec (c ++ [a]) cap) -> Enc l (c ++ [a]) x ->
  exists cap', lrun triv (x1 <- xs_push cmp 0 x x ;; xs_pop eqb 0 x1)%wprog ls = Ok (a, <[0 := LVec c cap']> ls).
Proof.
  intros H He. unfold xs_push. rewrite !lrun_bind. lstep.
  destruct (c ++ [a]) as [|b c'] eqn:E; [destruct c; discriminate|]. rewrite <- E in *.
  simpl orb. rewrite cmp_irrefl. cbn [lrun wbind]. rewrite lrun_bind.
  destruct (st_push_run ls 0 (c ++ [a]) x cap H) as [c1 ->]. cbn [lrun wbind].
  unfold xs_pop.
  set (ls1 := <[0:=LVec ((c ++ [a]) ++ [x]) c1]> ls).
  assert (H1 : ls1 !! 0 = Some (LVec ((c ++ [a]) ++ [x]) c1)) by apply lookup_insert.
  rewrite (lrun_bind_ok _ _ _ _ _ _ (st_top_run _ 0 _ _ _ H1)).
  destruct (st_pop_run _ 0 _ _ _ H1) as [c2 E2]. rewrite (lrun_bind_ok _ _ _ _ _ _ E2), eqb_refl.
  subst ls1. rewrite insert_insert.
  set (ls1 := <[0:=LVec (c ++ [a]) c2]> ls).
  assert (H2 : ls1 !! 0 = Some (LVec (c ++ [a]) c2)) by apply lookup_insert.
  rewrite (lrun_bind_ok _ _ _ _ _ _ (st_top_run _ 0 _ _ _ H2)).
  destruct (st_pop_run _ 0 _ _ _ H2) as [c3 E3]. rewrite (lrun_bind_ok _ _ _ _ _ _ E3).
  subst ls1. rewrite insert_insert. simpl. eauto.
Qed.

Lemma repeat_general (g : A) ops a l :
  no_repeat cmp eqb ops [] -> xfinal ops [] = a :: l ->
  (forall rs, xspec cmp ops [] rs -> rs <> None) ->
  exists x rs w, is_extremum cmp x (a :: l) /\
    wrun triv (xs_history cmp eqb g (ops ++ [XPush x; XPop; XExt])) world_init = Ok (rs ++ [RUnit; RUnit; RVal a], w).
Proof.
  intros Hn Hf Hna.
  destruct (xs_run_agree ops (<[0 := LVec [] 0]> ∅) [] 0 [] g (lookup_insert _ _ _) (enc_nil g) Hn) as (rs & Hsp & Hr).
  destruct rs as [rs|]; [|destruct (Hna _ Hsp eq_refl)].
  destruct Hr as (x & ls & c & cap & Hrun & Hl & He). rewrite Hf in He.
  destruct (enc_top _ _ _ _ He) as [c0 ->].
  destruct (repeat_loses ls c0 a cap _ x Hl He) as [cap' Hrep].
  pose proof (program_from_scratch triv (xs_history cmp eqb g (ops ++ [XPush x; XPop; XExt]))) as Hp.
  rewrite xs_history_run, (xs_run_app _ _ _ _ _ _ _ Hrun) in Hp.
  assert (E : lrun triv (xs_run cmp eqb 0 [XPush x; XPop; XExt] x) ls = Ok ([RUnit; RUnit; RVal a], a, <[0 := LVec c0 cap']> ls)).
  { rewrite lrun_bind in Hrep. destruct (lrun triv (xs_push cmp 0 x x) ls) as [[x1 ls1]| | |] eqn:E1; try discriminate.
    cbn [xs_run xs_step]. rewrite lrun_bind, lrun_bind, E1. cbn [lrun snd fst].
    rewrite lrun_bind, lrun_bind, lrun_bind, Hrep. reflexivity. }
  rewrite E in Hp. destruct Hp as (w & Hw & _). exists x, rs, w. split; [|exact Hw].
  eapply enc_extremum; [exact He|discriminate].
Qed.

(** Observable form: push a, push a, pop; the element left is no longer there -
    top() yields the uninitialised initial value. *)
Lemma repeat_refuted (g a : A) :
  exists w, wrun triv (xs_history cmp eqb g [XPush a; XPush a; XPop; XTop]) world_init
    = Ok ([RUnit; RUnit; RUnit; RVal g], w).
Proof.
  pose proof (program_from_scratch triv (xs_history cmp eqb g [XPush a; XPush a; XPop; XTop])) as Hp.
  destruct (lrun triv (xs_history cmp eqb g [XPush a; XPush a; XPop; XTop]) ∅) as [[r s]| | |] eqn:E;
    vm_compute in E; rewrite cmp_irrefl in E; rewrite eqb_refl in E; try discriminate.
  injection E as <- _. destruct Hp as (w & Hw & _). eauto.
Qed.

End StackP.
