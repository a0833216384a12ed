(** Heaps with indexing and references: the additional calls, and whole histories. *)
From Verif Require Import Base VectorModel VectorSpec VecProg VectorProofs VectorWorld VectorExtra LRun Adapter
  HeapModel HeapSpec HeapProofs HeapRefModel HeapRefSpec HeapRefProofs.

Section HeapRefH.
Context {A : Type} (triv : bool) (cmp : A -> A -> bool).

(** ** The program of push(src[i]) *)
Lemma push_ref_copy (s : lworld A) id src c cap u ucap i k a :
  s !! id = Some (LVec c cap) -> s !! src = Some (LVec u ucap) ->
  py_index (length u) i = Some k -> nth_error u k = Some a -> id <> src \/ length c <> cap ->
  lrun triv (hp_push_ref cmp id src i) s = lrun triv (hp_push cmp id a) s.
Proof.
  intros Hs Hu Hi Ha Hor. unfold hp_push_ref, hp_push. rewrite !lrun_bind. erewrite wpush_ok by exact Hs.
  cbn [wpush_elem lrun lw_step]. unfold lwith, at_index. rewrite Hs, Hu. cbn [l_seq l_cap]. rewrite Hi, Ha.
  destruct (Nat.eqb_spec id src); destruct (Nat.eqb_spec (length c) cap); cbn [andb lrun]; try reflexivity.
  destruct Hor; congruence.
Qed.
Lemma push_ref_full (s : lworld A) id c i k a :
  s !! id = Some (LVec c (length c)) -> py_index (length c) i = Some k -> nth_error c k = Some a ->
  lrun triv (hp_push_ref cmp id id i) s = UB.
Proof.
  intros Hs Hi Ha. unfold hp_push_ref. rewrite lrun_bind. cbn [wpush_elem lrun lw_step]. unfold lwith, at_index.
  rewrite Hs. cbn [l_seq l_cap]. rewrite Hi, Ha, !Nat.eqb_refl. reflexivity.
Qed.
Lemma push_ref_out (s : lworld A) id src c cap u ucap i :
  s !! id = Some (LVec c cap) -> s !! src = Some (LVec u ucap) -> py_index (length u) i = None ->
  lrun triv (hp_push_ref cmp id src i) s = if (Z.of_nat (length u) <=? i)%Z then Abort else UB.
Proof.
  intros Hs Hu Hi. unfold hp_push_ref. rewrite lrun_bind. cbn [wpush_elem lrun lw_step]. unfold lwith, at_index.
  rewrite Hs, Hu. cbn [l_seq l_cap]. rewrite Hi. destruct (_ <=? _)%Z; reflexivity.
Qed.
Lemma at_run (s : lworld A) id c cap i : s !! id = Some (LVec c cap) ->
  lrun triv (hp_at id i) s =
  match py_index (length c) i with
  | Some k => match nth_error c k with Some a => Ok (a, s) | None => UB end
  | None => if (Z.of_nat (length c) <=? i)%Z then Abort else UB
  end.
Proof.
  intros Hs. unfold hp_at, wget, wval. cbn [lrun lw_step lv_step]. unfold lwith, at_index. rewrite Hs. cbn [l_seq].
  destruct (py_index (length c) i); [|destruct (_ <=? _)%Z; reflexivity]. destruct (nth_error c n); reflexivity.
Qed.
Lemma py_index_lt n i k : py_index n i = Some k -> k < n.
Proof.
  unfold py_index. destruct (0 <=? i)%Z eqn:E1; [destruct (i <? Z.of_nat n)%Z eqn:E2|destruct (- Z.of_nat n <=? i)%Z eqn:E2];
    intros H; injection H as <- || discriminate; lia.
Qed.
Lemma py_index_some {B} (c : list B) i k : py_index (length c) i = Some k -> exists a, nth_error c k = Some a.
Proof.
  intros H. apply py_index_lt in H. destruct (nth_error c k) eqn:E; [eauto|]. apply nth_error_None in E. lia.
Qed.

Context (le : A -> A -> Prop).
Hypothesis le_trans : forall a b c, le a b -> le b c -> le a c.
Hypothesis cmp_le : forall a b, cmp a b = true -> le a b.
Hypothesis cmp_ge : forall a b, cmp a b = false -> le b a.
Notation rworld := (gmap nat (robj A)).
Notation t_rel := (t_rel le).

Lemma hr_step_agree o (s : rworld) ls : t_rel s ls ->
  exists r, hr_step triv le o s r /\ agree t_rel r (lrun triv (hr_prog cmp o) ls).
Proof.
  intros H. destruct o as [o|id i|id|id src i]; [apply do_agree; assumption| | |].
  - cbn [hr_step hr_prog]. destruct (s !! id) as [[g l cap|l]|] eqn:Hs; try (exists SUnspec; split; [reflexivity|exact I]).
    destruct (t_heap le _ _ _ _ _ _ H Hs) as (Hl & Ho & Hc). rewrite lrun_bind, (at_run _ _ _ _ _ Hl). cbn [length].
    destruct (py_index (S (length l)) i) as [k|] eqn:Hi.
    + destruct (py_index_some (g :: l) i k Hi) as [a Ha]. exists (SVal (RVal a, s)). split; [eauto|].
      rewrite Ha. cbn [agree lrun]. eauto.
    + eexists. split; [reflexivity|].
      destruct (Z.ltb_spec (Z.of_nat (length l)) i), (Z.leb_spec (Z.of_nat (S (length l))) i); cbn [agree]; try lia; auto.
  - cbn [hr_step hr_prog]. destruct (s !! id) as [[g l cap|l]|] eqn:Hs; try (exists SUnspec; split; [reflexivity|exact I]).
    destruct (t_heap le _ _ _ _ _ _ H Hs) as (Hl & Ho & Hc). eexists. split; [reflexivity|]. cbn [agree].
    unfold hp_cap. rewrite lrun_bind. lgo wcap_ok. cbn [lrun]. eauto.
  - cbn [hr_step hr_prog]. destruct (s !! id) as [[g l cap|l]|] eqn:Hs;
      try (exists SUnspec; split; [destruct (s !! src); reflexivity|exact I]).
    destruct (s !! src) as [o|] eqn:Hu; try (exists SUnspec; split; [reflexivity|exact I]).
    destruct (t_heap le _ _ _ _ _ _ H Hs) as (Hl & Ho & Hc). destruct (t_shown le _ _ _ _ H Hu) as [ucap Hlu].
    rewrite lrun_bind. destruct (py_index (length (shown o)) i) as [k|] eqn:Hi.
    + destruct (py_index_some _ _ _ Hi) as [a Ha].
      destruct (Nat.eqb id src && Nat.eqb (length l) cap) eqn:Eb; [exists SUnspec; split; [reflexivity|exact I]|].
      rewrite (push_ref_copy ls id src _ _ _ _ i k a Hl Hlu Hi Ha).
      2:{ apply andb_false_iff in Eb as [Eb|Eb]; apply Nat.eqb_neq in Eb; [left; exact Eb|right; cbn [length]; lia]. }
      destruct (hp_push_cap triv cmp le le_trans cmp_le cmp_ge ls id g l (S cap) a Hl Ho) as (l' & Hrun & Hp & Ho').
      assert (Hcap : exists cap', cap_push (S (length l)) (S cap) = S cap' /\ (length l < cap -> cap' = cap) /\ length l' <= cap').
      { apply Permutation_length in Hp. cbn [length] in Hp. unfold cap_push.
        destruct (Nat.eqb_spec (S (length l)) (S cap)).
        - exists (Nat.max 2 (2 * S (length l)) - 1). split_and!; lia.
        - exists cap. split_and!; auto. lia. }
      destruct Hcap as (cap' & Ec & Hcap' & Hle). rewrite Ec in Hrun.
      exists (SVal (RUnit, <[id := RHeap g l' cap']> s)). split.
      * exists a, l', cap'. split_and!; auto. apply heap_ord_first; [exact le_trans|exact Ho'].
      * rewrite Hrun. cbn [agree lrun]. eexists. split; [reflexivity|]. split.
        { apply lfit_ins; [exact (proj1 H)|]. cbn. lia. }
        { apply m_ins; [exact (proj2 H)|]. split; [reflexivity|exact Ho']. }
    + eexists. split; [reflexivity|]. rewrite (push_ref_out _ _ _ _ _ _ _ _ Hl Hlu Hi).
      destruct (_ <=? _)%Z; cbn [agree]; auto.
Qed.

Lemma hr_run_agree ops : forall (s : rworld) ls, t_rel s ls ->
  exists r, hr_run triv le ops s r /\ agree t_rel r (lrun triv (arun (hr_prog cmp) ops) ls).
Proof.
  induction ops as [|o ops IH]; intros s ls H.
  - eexists. split; [reflexivity|]. exists ls. auto.
  - destruct (hr_step_agree o s ls H) as (r1 & Hst & Ha). cbn [hr_run arun].
    destruct r1 as [[x s1]| |]; cbn [agree] in Ha.
    + destruct Ha as (ls1 & Hrun & H1). destruct (IH s1 ls1 H1) as (r2 & Hst2 & Ha2).
      eexists. split; [exists (SVal (x, s1)); split; [exact Hst|]; exists r2; split; [exact Hst2|reflexivity]|].
      rewrite (lrun_bind_ok _ _ _ _ _ _ Hrun), lrun_bind.
      destruct r2 as [[xs s2]| |]; cbn [agree] in Ha2 |- *; auto.
      * destruct Ha2 as (ls2 & -> & H2). exists ls2. auto.
      * rewrite Ha2. reflexivity.
    + exists SAbort. split; [exists SAbort; auto|]. cbn [agree]. rewrite lrun_bind, Ha. reflexivity.
    + exists SUnspec. split; [exists SUnspec; auto|exact I].
Qed.

Lemma heap_ref_history ops :
  exists r, hr_run triv le ops ∅ r /\
    match r with
    | SVal (rs, s) => exists w, wrun triv (arun (hr_prog cmp) ops) world_init = Ok (rs, w) /\ storage_ok w
    | SAbort => wrun triv (arun (hr_prog cmp) ops) world_init = Abort
    | SUnspec => True
    end.
Proof.
  destruct (hr_run_agree ops ∅ ∅) as (r & Hr & Ha).
  { split; [intros id v Hv; rewrite lookup_empty in Hv; discriminate|]. intros id. rewrite !lookup_empty. exact I. }
  exists r. split; [exact Hr|]. pose proof (wrun_agree triv t_rel _ _ Ha) as Hw.
  destruct r as [[rs s]| |]; auto. destruct Hw as (w & Hrun & _ & Hst). eauto.
Qed.
End HeapRefH.

(** ** What the client can tell before the call *)
Section Observed.
Context {A : Type} (triv : bool) (cmp : A -> A -> bool).
Notation run ops := (wrun triv (arun (hr_prog cmp) ops) world_init).

Lemma arun_app {O P} (step : O -> wprog A P) o1 : forall o2 (s : lworld A),
  lrun triv (arun step (o1 ++ o2)) s =
  match lrun triv (arun step o1) s with
  | Ok (r1, s1) => match lrun triv (arun step o2) s1 with Ok (r2, s2) => Ok (r1 ++ r2, s2) | Abort => Abort | UB => UB | Diverge => Diverge end
  | Abort => Abort | UB => UB | Diverge => Diverge
  end.
Proof.
  induction o1 as [|o o1 IH]; intros o2 s; cbn [app arun lrun].
  - destruct (lrun triv (arun step o2) s) as [[r2 s2]| | |]; reflexivity.
  - rewrite !lrun_bind. destruct (lrun triv (step o) s) as [[r s1]| | |]; try reflexivity.
    rewrite !lrun_bind, IH. destruct (lrun triv (arun step o1) s1) as [[r1 s2]| | |]; try reflexivity.
    cbn [lrun]. destruct (lrun triv (arun step o2) s2) as [[r2 s3]| | |]; reflexivity.
Qed.

Lemma run_ok_inv {X} (p : wprog A X) x w : wrun triv p world_init = Ok (x, w) -> lrun triv p ∅ = Ok (x, view w).
Proof.
  intros H. pose proof (program_from_scratch triv p) as Hp.
  destruct (lrun triv p ∅) as [[y s']| | |]; try congruence.
  destruct Hp as (w' & E & <- & _). rewrite H in E. injection E as <- <-. reflexivity.
Qed.

(** What size(), capacity() and the elements tell of the vectors. *)
Lemma seen (ops : list (@hrop A)) id src i n m a rs w :
  run (ops ++ [HDo (HSize id); HCap id; HAt src i]) = Ok (rs ++ [RNat n; RNat m; RVal a], w) ->
  exists s c u ucap k, lrun triv (arun (hr_prog cmp) ops) ∅ = Ok (rs, s) /\
    s !! id = Some (LVec c (S m)) /\ length c = S n /\ s !! src = Some (LVec u ucap) /\
    py_index (length u) i = Some k /\ nth_error u k = Some a.
Proof.
  intros H. apply run_ok_inv in H. rewrite arun_app in H.
  destruct (lrun triv (arun (hr_prog cmp) ops) ∅) as [[rs0 s]| | |]; try discriminate.
  destruct (lrun triv (arun (hr_prog cmp) [HDo (HSize id); HCap id; HAt src i]) s) as [[r2 s2]| | |] eqn:E; try discriminate.
  injection H as Hrs Hv.
  cbn [arun hr_prog hp_step] in E. rewrite !lrun_bind in E.
  unfold hp_size at 1 in E. rewrite lrun_bind in E.
  destruct (s !! id) as [[c cap]|] eqn:Hs.
  2:{ cbn in E. unfold lwith in E. rewrite Hs in E. discriminate. }
  rewrite (wsize_ok triv _ _ _ _ Hs) in E. destruct c as [|c0 c]; [discriminate|]. cbn [length lrun] in E.
  rewrite !lrun_bind in E. unfold hp_cap in E. rewrite lrun_bind, (wcap_ok triv _ _ _ _ Hs) in E.
  destruct cap as [|cap]; [discriminate|]. cbn [lrun] in E. rewrite !lrun_bind in E.
  destruct (s !! src) as [[u ucap]|] eqn:Hu.
  2:{ unfold hp_at in E. cbn in E. unfold lwith in E. rewrite Hu in E. discriminate. }
  rewrite (at_run triv _ _ _ _ _ Hu) in E. destruct (py_index (length u) i) as [k|] eqn:Hi.
  2:{ destruct (_ <=? _)%Z in E; discriminate. }
  destruct (nth_error u k) as [b|] eqn:Ha; [|discriminate]. cbn [lrun] in E. injection E as <- _.
  apply app_inj_2 in Hrs as [-> Hrs]; [|reflexivity]. injection Hrs as <- <- <-.
  exists s, (c0 :: c), u, ucap, k. split_and!; auto.
Qed.

Lemma push_ref_seen (ops : list (@hrop A)) id src i n m a rs w :
  run (ops ++ [HDo (HSize id); HCap id; HAt src i]) = Ok (rs ++ [RNat n; RNat m; RVal a], w) ->
  (id <> src \/ n <> m) ->
  match run (ops ++ [HDo (HPush id a)]) with
  | Ok (rs', w1) => exists w2, run (ops ++ [HPushRef id src i]) = Ok (rs', w2) /\ view w2 = view w1
  | r => run (ops ++ [HPushRef id src i]) = r
  end.
Proof.
  intros H Hor. destruct (seen _ _ _ _ _ _ _ _ _ H) as (s & c & u & ucap & k & Hrun & Hs & Hlen & Hu & Hi & Ha).
  assert (E : lrun triv (arun (hr_prog cmp) (ops ++ [HPushRef id src i])) ∅ =
              lrun triv (arun (hr_prog cmp) (ops ++ [HDo (HPush id a)])) ∅).
  { rewrite !arun_app, Hrun. cbn [arun hr_prog hp_step]. rewrite !lrun_bind.
    rewrite (push_ref_copy triv cmp s id src c (S m) u ucap i k a); auto. destruct Hor; [auto|right; lia]. }
  pose proof (program_from_scratch triv (arun (hr_prog cmp) (ops ++ [HPushRef id src i]))) as P1.
  pose proof (program_from_scratch triv (arun (hr_prog cmp) (ops ++ [HDo (HPush id a)]))) as P2.
  rewrite E in P1. destruct (lrun triv (arun (hr_prog cmp) (ops ++ [HDo (HPush id a)])) ∅) as [[x s']| | |].
  - destruct P1 as (w1 & R1 & V1 & _), P2 as (w2 & R2 & V2 & _). rewrite R2. exists w1. split; [exact R1|congruence].
  - rewrite P2. exact P1.
  - rewrite P2. exact P1.
  - rewrite P2. exact P1.
Qed.

Lemma push_ref_refuted (ops : list (@hrop A)) id i n a rs w :
  run (ops ++ [HDo (HSize id); HCap id; HAt id i]) = Ok (rs ++ [RNat n; RNat n; RVal a], w) ->
  run (ops ++ [HPushRef id id i]) = UB.
Proof.
  intros H. destruct (seen _ _ _ _ _ _ _ _ _ H) as (s & c & u & ucap & k & Hrun & Hs & Hlen & Hu & Hi & Ha).
  rewrite Hs in Hu. injection Hu as <- <-.
  pose proof (program_from_scratch triv (arun (hr_prog cmp) (ops ++ [HPushRef id id i]))) as P1.
  rewrite arun_app, Hrun in P1. cbn [arun hr_prog] in P1. rewrite !lrun_bind in P1.
  rewrite <- Hlen in Hs. rewrite (push_ref_full triv cmp s id c i k a Hs Hi Ha) in P1. exact P1.
Qed.
End Observed.
