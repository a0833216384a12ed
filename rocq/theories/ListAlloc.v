(** Lists over an allocator with room for [n] nodes. *)
From Verif Require Import Base Alloc AllocProofs VectorModel VectorSpec Adapter Hist ListModel ListSpec ListHist ListHist2 ListHist3 ListIterModel ListIterSpec ListIterProofs DequeSpec QueueModel QueueSpec QueueProofs.
Notation ltotal := ListSpec.elements_total.

Section Limited.
Context {O P S W : Type} (pstep : O -> M W P) (sstep : O -> S -> sres (P * S)) (R : S -> W -> Prop) (F : S -> Prop) (count : S -> nat) (n : nat).

Lemma mrun_app_abort ops1 ops2 w : mrun pstep ops1 w = Abort -> mrun pstep (ops1 ++ ops2) w = Abort.
Proof.
  revert w. induction ops1 as [|o ops1 IH]; intros w; cbn [app mrun]; [discriminate|]. unfold bind.
  destruct (pstep o w) as [[r w1]| | |]; auto.
  destruct (mrun pstep ops1 w1) as [[rs w2]| | |] eqn:E; try discriminate. intros _. rewrite (IH w1 E). reflexivity.
Qed.
Lemma limited : (forall o s w, R s w -> magree_or R F (sstep o s) (pstep o w)) ->
  (forall s w, R s w -> count s <= n) -> (forall s, F s -> n < count s) ->
  forall ops s w rs s', R s w -> srun sstep ops s = SVal (rs, s') ->
  ((forall ops1 ops2 rs1 s1, ops = ops1 ++ ops2 -> srun sstep ops1 s = SVal (rs1, s1) -> count s1 <= n) ->
     exists w', mrun pstep ops w = Ok (rs, w')) /\
  ((exists ops1 ops2 rs1 s1, ops = ops1 ++ ops2 /\ srun sstep ops1 s = SVal (rs1, s1) /\ n < count s1) -> mrun pstep ops w = Abort).
Proof.
  intros Hstep HR HF ops s w rs s' H E. split.
  - intros Hall. pose proof (mrun_agree_or pstep sstep R F Hstep ops s w H) as Ha. rewrite E in Ha.
    destruct Ha as [(w' & Ha & _)|(_ & ops1 & ops2 & rs1 & s1 & Eo & E1 & Hf)]; [eauto|]. specialize (Hall _ _ _ _ Eo E1). apply HF in Hf. lia.
  - intros (ops1 & ops2 & rs1 & s1 & -> & E1 & Hn). apply mrun_app_abort.
    pose proof (mrun_agree_or pstep sstep R F Hstep ops1 s w H) as Ha. rewrite E1 in Ha.
    destruct Ha as [(w' & _ & Hr)|[Ha _]]; [|exact Ha]. apply HR in Hr. lia.
Qed.
End Limited.

Section Lists.
Context {A : Type} (junk : A) (pol : policy) (n : nat) (Hs : sound pol) (Hr : room pol n).

Lemma inv_room d lay (st : lst A) : inv d lay st -> al_pol (l_al st) = pol -> tot lay <= n.
Proof. intros H E. rewrite <- (live_size _ _ _ H). eapply room_live; [exact Hr|]. rewrite <- E. apply (i_served _ _ _ H). Qed.

Theorem dl_room ops rs s : srun (ls_step true) ops ∅ = SVal (rs, s) ->
  ((forall ops1 ops2 rs1 s1, ops = ops1 ++ ops2 -> srun (ls_step true) ops1 ∅ = SVal (rs1, s1) -> ltotal s1 <= n) ->
     exists w, mrun (dl_step junk) ops (lst_init pol) = Ok (rs, w)) /\
  ((exists ops1 ops2 rs1 s1, ops = ops1 ++ ops2 /\ srun (ls_step true) ops1 ∅ = SVal (rs1, s1) /\ n < ltotal s1) ->
     mrun (dl_step junk) ops (lst_init pol) = Abort).
Proof.
  apply (limited _ _ (dlR pol) (fun s => refuses pol (ltotal s)) ltotal n (dl_step_or junk pol)).
  - intros s' w (lay & -> & Hi & Hp). exact (inv_room _ _ _ Hi Hp).
  - intros s'. apply room_over. exact Hr.
  - apply dlR_init, Hs.
Qed.
Theorem sl_room ops rs s : srun (ls_step false) ops ∅ = SVal (rs, s) ->
  ((forall ops1 ops2 rs1 s1, ops = ops1 ++ ops2 -> srun (ls_step false) ops1 ∅ = SVal (rs1, s1) -> ltotal s1 <= n) ->
     exists w, mrun (sl_step junk) ops (lst_init pol) = Ok (rs, w)) /\
  ((exists ops1 ops2 rs1 s1, ops = ops1 ++ ops2 /\ srun (ls_step false) ops1 ∅ = SVal (rs1, s1) /\ n < ltotal s1) ->
     mrun (sl_step junk) ops (lst_init pol) = Abort).
Proof.
  apply (limited _ _ (slR pol) (fun s => refuses pol (ltotal s)) ltotal n (sl_step_or junk pol)).
  - intros s' w (lay & -> & Hi & _ & Hp). exact (inv_room _ _ _ Hi Hp).
  - intros s'. apply room_over. exact Hr.
  - apply slR_init, Hs.
Qed.
Theorem ql_room ops rs s : srun (qs_step false) ops ∅ = SVal (rs, s) ->
  ((forall ops1 ops2 rs1 s1, ops = ops1 ++ ops2 -> srun (qs_step false) ops1 ∅ = SVal (rs1, s1) -> elements_total s1 <= n) ->
     exists w, mrun (ql_step junk) ops (lst_init pol) = Ok (rs, w)) /\
  ((exists ops1 ops2 rs1 s1, ops = ops1 ++ ops2 /\ srun (qs_step false) ops1 ∅ = SVal (rs1, s1) /\ n < elements_total s1) ->
     mrun (ql_step junk) ops (lst_init pol) = Abort).
Proof.
  apply (limited _ _ (fun s w => dlR pol (fst <$> s) w) (fun s => refuses pol (ltotal (fst <$> s))) elements_total n (fun o s w => qs_list junk pol o s w)).
  - intros s' w (lay & E & Hi & Hp). rewrite <- q_total, E. exact (inv_room _ _ _ Hi Hp).
  - intros s'. rewrite <- q_total. apply room_over. exact Hr.
  - rewrite fmap_empty. apply dlR_init, Hs.
Qed.
Theorem it_room dbl ops rs s : srun (is_step dbl) ops ispec0 = SVal (rs, s) ->
  ((forall ops1 ops2 rs1 s1, ops = ops1 ++ ops2 -> srun (is_step dbl) ops1 ispec0 = SVal (rs1, s1) -> ltotal (strip (s_lists s1)) <= n) ->
     exists w, mrun (it_step junk dbl) ops (lst_init pol, ∅) = Ok (rs, w)) /\
  ((exists ops1 ops2 rs1 s1, ops = ops1 ++ ops2 /\ srun (is_step dbl) ops1 ispec0 = SVal (rs1, s1) /\ n < ltotal (strip (s_lists s1))) ->
     mrun (it_step junk dbl) ops (lst_init pol, ∅) = Abort).
Proof.
  apply (limited _ _ (iR dbl pol) (fun s => refuses pol (ltotal (strip (s_lists s)))) (fun s => ltotal (strip (s_lists s))) n (it_step_or junk dbl pol)).
  - intros s' w (f & Hi & _ & _ & _ & _ & Hp). pose proof (inv_room _ _ _ Hi Hp) as Hl. unfold tot in Hl.
    replace (strip (s_lists s')) with ((fun xs => xs.*2) <$> ren f (s_lists s')); [exact Hl|].
    unfold strip, ren. rewrite <- map_fmap_compose. apply map_fmap_ext. intros i xs _. apply renl_snd.
  - intros s'. apply room_over. exact Hr.
  - apply iR_init, Hs.
Qed.
End Lists.

Section Limit.
Context {A : Type} (junk : A) (pol : policy) (n : nat) (Hs : sound pol) (Hg : grants pol).
Theorem dl_limited ops rs s : srun (ls_step true) ops ∅ = SVal (rs, s) ->
  ((forall ops1 ops2 rs1 s1, ops = ops1 ++ ops2 -> srun (ls_step true) ops1 ∅ = SVal (rs1, s1) -> ltotal s1 <= n) ->
     exists w, mrun (dl_step junk) ops (lst_init (limit n pol)) = Ok (rs, w)) /\
  ((exists ops1 ops2 rs1 s1, ops = ops1 ++ ops2 /\ srun (ls_step true) ops1 ∅ = SVal (rs1, s1) /\ n < ltotal s1) ->
     mrun (dl_step junk) ops (lst_init (limit n pol)) = Abort).
Proof. apply (dl_room junk (limit n pol) n (limit_sound n pol Hs) (limit_room n pol Hg)). Qed.
Theorem sl_limited ops rs s : srun (ls_step false) ops ∅ = SVal (rs, s) ->
  ((forall ops1 ops2 rs1 s1, ops = ops1 ++ ops2 -> srun (ls_step false) ops1 ∅ = SVal (rs1, s1) -> ltotal s1 <= n) ->
     exists w, mrun (sl_step junk) ops (lst_init (limit n pol)) = Ok (rs, w)) /\
  ((exists ops1 ops2 rs1 s1, ops = ops1 ++ ops2 /\ srun (ls_step false) ops1 ∅ = SVal (rs1, s1) /\ n < ltotal s1) ->
     mrun (sl_step junk) ops (lst_init (limit n pol)) = Abort).
Proof. apply (sl_room junk (limit n pol) n (limit_sound n pol Hs) (limit_room n pol Hg)). Qed.
Theorem ql_limited ops rs s : srun (qs_step false) ops ∅ = SVal (rs, s) ->
  ((forall ops1 ops2 rs1 s1, ops = ops1 ++ ops2 -> srun (qs_step false) ops1 ∅ = SVal (rs1, s1) -> elements_total s1 <= n) ->
     exists w, mrun (ql_step junk) ops (lst_init (limit n pol)) = Ok (rs, w)) /\
  ((exists ops1 ops2 rs1 s1, ops = ops1 ++ ops2 /\ srun (qs_step false) ops1 ∅ = SVal (rs1, s1) /\ n < elements_total s1) ->
     mrun (ql_step junk) ops (lst_init (limit n pol)) = Abort).
Proof. apply (ql_room junk (limit n pol) n (limit_sound n pol Hs) (limit_room n pol Hg)). Qed.
Theorem it_limited dbl ops rs s : srun (is_step dbl) ops ispec0 = SVal (rs, s) ->
  ((forall ops1 ops2 rs1 s1, ops = ops1 ++ ops2 -> srun (is_step dbl) ops1 ispec0 = SVal (rs1, s1) -> ltotal (strip (s_lists s1)) <= n) ->
     exists w, mrun (it_step junk dbl) ops (lst_init (limit n pol), ∅) = Ok (rs, w)) /\
  ((exists ops1 ops2 rs1 s1, ops = ops1 ++ ops2 /\ srun (is_step dbl) ops1 ispec0 = SVal (rs1, s1) /\ n < ltotal (strip (s_lists s1))) ->
     mrun (it_step junk dbl) ops (lst_init (limit n pol), ∅) = Abort).
Proof. apply (it_room junk (limit n pol) n (limit_sound n pol Hs) (limit_room n pol Hg)). Qed.
End Limit.
