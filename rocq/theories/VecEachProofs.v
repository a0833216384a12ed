(** for_each over vectors with callbacks that change them: agreement with the
    specification. *)
From Verif Require Import Base VectorModel VectorSpec VectorProofs VecProg VectorWorld VecIterModel VecIterSpec Hist VecIterProofs VecIter VecEachModel VecEachSpec.

Section Proofs.
Context {A C : Type} (triv : bool) (eqb : A -> A -> bool).
Notation state := (lworld A * gmap nat pos)%type.

Definition vsim {X} (r : res (X * state)) (c : res (X * vworld A)) : Prop :=
  match r with
  | Ok (x, s') => exists w', c = Ok (x, w') /\ yinv s' w'
  | Abort => c = Abort
  | UB => c = UB
  | Diverge => c = Diverge
  end.

Lemma vclient_ok (p : vclient A C) : forall s w, yinv s w -> vsim (vclient_spec triv eqb p s) (vclient_run triv eqb p w).
Proof.
  induction p as [c|o k IH]; intros s w H; cbn [vclient_spec vclient_run]; [exists w; auto|].
  pose proof (y_step_sim triv eqb o s w H) as Hs. destruct (ys_step triv eqb o s) as [[r s1]| | |]; cbn [ysim] in Hs.
  - destruct Hs as (w1 & E & H1). rewrite (bind_ok _ _ _ _ _ E). apply IH, H1.
  - apply bind_abort, Hs.
  - apply bind_ub, Hs.
  - apply bind_diverge, Hs.
Qed.
Lemma set_var_ok (s : state) w k p q : yinv s w -> rvar (fst w) p q -> exists w', set_var k p w = Ok (tt, w') /\ yinv (fst s, <[k := q]> (snd s)) w'.
Proof. intros H Hr. eexists. split; [reflexivity|]. apply yinv_set; assumption. Qed.

Ltac vr2 :=
  match goal with H : yinv ?s ?w |- vsim (match snd ?s !! ?it with _ => _ end) (bind (var ?it) ?k ?w) =>
    let Hp := fresh "Hp" in let E := fresh "E" in pose proof (with_pvar s w it k H) as Hp;
    destruct (snd s !! it) as [q|] eqn:Eq; [|exact Hp]; destruct Hp as (p & Hp & E); rewrite E; clear E
  end;
  match goal with H : yinv ?s ?w |- vsim (match snd ?s !! ?it with _ => _ end) (bind (var ?it) ?k ?w) =>
    let Hp := fresh "Hq" in let E := fresh "E" in pose proof (with_pvar s w it k H) as Hp;
    destruct (snd s !! it) as [r|] eqn:?; [|exact Hp]; destruct Hp as (p' & Hp & E); rewrite E; clear E
  end;
  match goal with H : yinv ?s ?w, Hp : rvar _ ?p ?q, Hq : rvar _ ?p' ?r |- vsim (match pos_diff ?q ?r with _ => _ end) _ =>
    let He := fresh "He" in pose proof (p_eq_ok _ _ (proj1 H) _ _ _ _ Hp Hq) as He; destruct (pos_diff q r) as [d|]; [|apply bind_ub, on_mem_ub, He];
    rewrite (bind_ok _ _ _ _ _ (on_mem_same _ _ _ He))
  end.

Lemma veach_ok e it x (cb : C -> vclient A C) fuel : forall c s w, yinv s w ->
  vsim (veach_spec triv eqb fuel e it x cb c s) (veach_loop triv eqb fuel e it x cb c w).
Proof.
  induction fuel as [|f IH]; intros c s w H; cbn [veach_spec veach_loop].
  - vr2. destruct (d =? 0)%Z; [exists w; auto|]. reflexivity.
  - vr2. destruct (d =? 0)%Z; [exists w; auto|]. match goal with |- vsim _ (bind (var it) ?k w) => pose proof (with_pvar s w it k H) as Hx end.
    rewrite Eq in Hx. destruct Hx as (p2 & Hx & E). rewrite E; clear E.
    pose proof (load_pos _ _ (proj1 H) _ _ Hx) as Hl. destruct (pos_get (fst s) q) as [a|]; [|apply bind_ub, on_mem_ub, Hl].
    rewrite (bind_ok _ _ _ _ _ (on_mem_same _ _ _ Hl)).
    destruct (set_var_ok s w x _ _ H Hx) as (w1 & E1 & H1). rewrite (bind_ok _ _ _ _ _ E1).
    pose proof (vclient_ok (cb c) _ _ H1) as Hc. destruct (vclient_spec triv eqb (cb c) _) as [[c' s2]| | |]; cbn [vsim] in Hc.
    2: apply bind_abort, Hc. 2: apply bind_ub, Hc. 2: apply bind_diverge, Hc.
    destruct Hc as (w2 & Ec & H2). rewrite (bind_ok _ _ _ _ _ Ec).
    match goal with |- vsim _ (bind (var it) ?k w2) => pose proof (with_pvar s2 w2 it k H2) as Hy end.
    destruct (snd s2 !! it) as [q3|]; [|exact Hy]. destruct Hy as (p3 & Hy & E). rewrite E; clear E.
    pose proof (p_add_ok _ _ (proj1 H2) _ _ 1 Hy) as Ha. destruct (pos_add (fst s2) q3 1) as [q4|]; [|apply bind_ub, on_mem_ub, Ha].
    destruct Ha as (p4 & Ea & Hr). rewrite (bind_ok _ _ _ _ _ (on_mem_same _ _ _ Ea)).
    destruct (set_var_ok s2 w2 it _ _ H2 Hr) as (w3 & E3 & H3). rewrite (bind_ok _ _ _ _ _ E3). apply IH, H3.
Qed.
Lemma veach_top fuel b e it x (cb : C -> vclient A C) c s w : yinv s w ->
  vsim (match snd s !! b with Some q => veach_spec triv eqb fuel e it x cb c (fst s, <[it := q]> (snd s)) | None => UB end) (veach triv eqb fuel b e it x cb c w).
Proof.
  intros H. unfold veach. match goal with |- vsim _ (bind (var b) ?k w) => pose proof (with_pvar s w b k H) as Hp end.
  destruct (snd s !! b) as [q|]; [|exact Hp]. destruct Hp as (p & Hp & E). rewrite E; clear E.
  destruct (set_var_ok s w it _ _ H Hp) as (w1 & E1 & H1). rewrite (bind_ok _ _ _ _ _ E1). apply veach_ok, H1.
Qed.
Lemma mrun_ok ops : forall s w, yinv s w -> vsim (ys_run triv eqb ops s) (mrun (y_step triv eqb) ops w).
Proof.
  induction ops as [|o ops IH]; intros s w H; cbn [ys_run mrun]; [exists w; auto|].
  pose proof (y_step_sim triv eqb o s w H) as Hs. unfold bind.
  destruct (ys_step triv eqb o s) as [[r s1]| | |]; cbn [ysim] in Hs; try (rewrite Hs; reflexivity).
  destruct Hs as (w1 & -> & H1). specialize (IH s1 w1 H1).
  destruct (ys_run triv eqb ops s1) as [[rs s2]| | |]; cbn [vsim] in IH; try (rewrite IH; reflexivity).
  destruct IH as (w2 & -> & H2). exists w2. auto.
Qed.

(** Whole programs. *)
Theorem veach_history ops1 fuel b e it x (cb : C -> vclient A C) c ops2 :
  let run := (rs1 <- mrun (y_step triv eqb) ops1 ;; c <- veach triv eqb fuel b e it x cb c ;; rs2 <- mrun (y_step triv eqb) ops2 ;; ret (rs1, c, rs2)) y_init in
  match veach_in_spec triv eqb ops1 fuel b e it x cb c ops2 with
  | Ok (rs1, c, rs2, s) => exists w, run = Ok (rs1, c, rs2, w) /\ forall id, contents (fst w) id = l_seq <$> fst s !! id
  | Abort => run = Abort
  | UB => run = UB
  | Diverge => run = Diverge
  end.
Proof.
  cbv zeta. unfold veach_in_spec. pose proof (mrun_ok ops1 (∅, ∅) y_init yinv_init) as H1.
  destruct (ys_run triv eqb ops1 (∅, ∅)) as [[rs1 s1]| | |]; cbn [vsim] in H1.
  2: apply bind_abort, H1. 2: apply bind_ub, H1. 2: apply bind_diverge, H1.
  destruct H1 as (w1 & E1 & H1). rewrite (bind_ok _ _ _ _ _ E1).
  pose proof (veach_top fuel b e it x cb c s1 w1 H1) as H2. destruct (snd s1 !! b) as [q|]; [|apply bind_ub, H2].
  destruct (veach_spec triv eqb fuel e it x cb c _) as [[c2 s2]| | |]; cbn [vsim] in H2.
  2: apply bind_abort, H2. 2: apply bind_ub, H2. 2: apply bind_diverge, H2.
  destruct H2 as (w2 & E2 & H2). rewrite (bind_ok _ _ _ _ _ E2).
  pose proof (mrun_ok ops2 s2 w2 H2) as H3. destruct (ys_run triv eqb ops2 s2) as [[rs3 s3]| | |]; cbn [vsim] in H3.
  2: apply bind_abort, H3. 2: apply bind_ub, H3. 2: apply bind_diverge, H3.
  destruct H3 as (w3 & E3 & H3). exists w3. rewrite (bind_ok _ _ _ _ _ E3). split; [reflexivity|].
  intros id. apply (winv_contents _ _ (proj1 H3)).
Qed.

(** After a history: begin, end and the loop. *)
Lemma veach_from ops rs w id v l fuel b e it x (cb : C -> vclient A C) c :
  mrun (y_step triv eqb) ops y_init = Ok (rs, w) -> holds (fst w) id v l -> b <> e -> exists s, fst s !! id = Some (LVec l (v_cap v)) /\
  vsim (veach_spec triv eqb fuel e it x cb c
         (fst s, <[it := pos_of (LVec l (v_cap v)) id 0]> (<[e := pos_of (LVec l (v_cap v)) id (length l)]> (<[b := pos_of (LVec l (v_cap v)) id 0]> (snd s)))))
       ((mrun (y_step triv eqb) [YBegin b id; YEnd e id] ;;; veach triv eqb fuel b e it x cb c) w).
Proof.
  intros Hr Hh Hne. destruct (y_run_inv triv eqb _ _ _ Hr) as [s H]. pose proof (yinv_holds _ _ _ _ _ H Hh) as Hl. exists s. split; [exact Hl|].
  pose proof (mrun_ok [YBegin b id; YEnd e id] s w H) as H1. cbn [ys_run ys_step] in H1. unfold lwith, setting in H1. rewrite Hl in H1. cbn [fst snd] in H1. rewrite Hl in H1. cbn [fst snd l_seq] in H1.
  destruct H1 as (w1 & E1 & H1). rewrite (bind_ok _ _ _ _ _ E1).
  pose proof (veach_top fuel b e it x cb c _ w1 H1) as H2. cbn [fst snd] in H2. rewrite lookup_insert_ne, lookup_insert in H2 by congruence. exact H2.
Qed.
End Proofs.
