(** Pushing a reference to a cell of a max-stack: as good as pushing a copy, or undefined. *)
From Verif Require Import Base VectorModel VectorSpec VecProg VectorProofs VectorWorld VectorExtra LRun Hist StackModel XStackModel StackRefModel StackRefSpec.

Section P.
Context {A : Type} (triv : bool) (cmp eqb : A -> A -> bool) (mvd : A -> A).
Notation eworld := (world A * gmap nat A)%type.
Notation kstep := (fun o => wrun triv (st_step o)).
Implicit Types (w : world A) (s : gmap nat (lvec A)).

Lemma cell_read w s id l cap v i a : winv w s -> s !! id = Some (LVec l cap) -> w_objs w !! id = Some v -> l !! i = Some a ->
  load (v_ptr v) i (w_mem w) = Ok (a, w_mem w).
Proof.
  intros H Hs Hv Ha. destruct (winv_obj _ _ _ _ H Hs) as (v' & Hv' & Hr & _). rewrite Hv in Hv'. injection Hv' as <-. eapply load_ok; eassumption.
Qed.

Lemma push_val w s id l cap x : winv w s -> s !! id = Some (LVec l cap) ->
  exists w', push_at triv id (AVal x) w = Ok (tt, w') /\ winv w' (<[id := LVec (l ++ [x]) (cap_push (length l) cap)]> s) /\
    (forall j, j <> id -> w_objs w' !! j = w_objs w !! j) /\
    (length l < cap -> forall v, w_objs w !! id = Some v -> exists v', w_objs w' !! id = Some v' /\ v_ptr v' = v_ptr v) /\
    (length l = cap -> l <> [] -> forall v i, w_objs w !! id = Some v -> load (v_ptr v) i (w_mem w') = UB).
Proof.
  intros H Hs. destruct (winv_obj _ _ _ _ H Hs) as (v & Hv & Hr & Hc). cbn [l_seq l_cap] in Hr, Hc. pose proof (wi_ok _ _ H) as Hok. pose proof (vrep_cap _ _ _ Hr) as Hcap. pose proof (vrep_size _ _ _ Hr) as Hsz.
  destruct (v_push_back_ok triv x v l _ Hr Hok) as (v' & m' & Hrun & Hpost).
  assert (Hgp : grow (length l) (v_cap v) = cap_push (length l) cap) by (rewrite <- cap_push_grow by lia; rewrite Hc; reflexivity).
  exists (World m' (<[id := v']> (w_objs w))). unfold push_at. rewrite (bind_ok _ _ _ _ _ (obj_ok _ _ _ Hv)). erewrite bind_ok by (apply lift_ok; exact Hrun). unfold set_obj. cbn [w_mem w_objs].
  split; [reflexivity|]. split; [rewrite Hgp in Hpost; eapply winv_update; eauto|]. split; [|split].
  - intros j Hj. rewrite lookup_insert_ne by congruence. reflexivity.
  - intros Hlt v0 Hv0. rewrite Hv in Hv0. injection Hv0 as <-. exists v'. split; [apply lookup_insert|].
    revert Hrun. unfold v_push_back. destruct (Nat.ltb_spec (v_cap v) (v_size v + 1)); [lia|]. rewrite bind_ret. cbn [read_arg]. rewrite bind_ret. intros Hrun. apply bind_inv in Hrun as ([] & m1 & _ & Hrun).
    injection Hrun as <- _. reflexivity.
  - intros Hf Hl v0 i Hv0. rewrite Hv in Hv0. injection Hv0 as <-. destruct (vrep_ptr _ _ _ Hr Hl) as (b & Hb & Hbs). rewrite Hb.
    assert (Hp : v_ptr v' = Some (m_next (w_mem w))).
    { revert Hrun. unfold v_push_back. destruct (Nat.ltb_spec (v_cap v) (v_size v + 1)); [|lia]. destruct (Nat.eqb_spec (v_size v) 0); [destruct l; [contradiction|cbn in *; lia]|]. cbn [negb].
      intros Hrun. apply bind_inv in Hrun as (v1 & m1 & Hrun1 & Hrun). apply v_resize_ptr in Hrun1; [|lia]. apply bind_inv in Hrun as (a1 & m2 & _ & Hrun). apply bind_inv in Hrun as ([] & m3 & _ & Hrun).
      injection Hrun as <- _. exact Hrun1. }
    eapply dangling; [exact Hok|exact Hb|rewrite Hbs; eauto|exact Hpost|exact Hp].
Qed.

Lemma push_same w s id src l cap u ucap vu i a : winv w s -> s !! id = Some (LVec l cap) -> s !! src = Some (LVec u ucap) -> w_objs w !! src = Some vu -> u !! i = Some a ->
  id <> src \/ length l < cap -> push_at triv id (ARef (v_ptr vu) i) w = push_at triv id (AVal a) w.
Proof.
  intros H Hs Hu Hvu Ha Hor. destruct (winv_obj _ _ _ _ H Hs) as (v & Hv & Hr & Hc). cbn [l_seq l_cap] in Hr, Hc. pose proof (wi_ok _ _ H) as Hok. pose proof (vrep_cap _ _ _ Hr) as Hcap. pose proof (vrep_size _ _ _ Hr) as Hsz.
  unfold push_at. rewrite !(bind_ok _ _ _ _ _ (obj_ok _ _ _ Hv)).
  assert (E : v_push_back triv (ARef (v_ptr vu) i) v (w_mem w) = v_push_back triv (AVal a) v (w_mem w)).
  { unfold v_push_back. destruct (Nat.ltb_spec (v_cap v) (v_size v + 1)).
    - destruct Hor as [Hne|Hlt]; [|lia].
      assert (G : forall n, length l <= n -> exists v1 m1, v_resize triv n v (w_mem w) = Ok (v1, m1) /\ load (v_ptr vu) i m1 = Ok (a, m1)).
      { intros n Hn. destruct (v_resize_ok triv n v l _ Hr Hok) as (v1 & m1 & Hrun & Hpost). exists v1, m1. split; [exact Hrun|]. destruct Hpost as (_ & _ & _ & Hrest & _).
        destruct (winv_obj _ _ _ _ H Hu) as (vu' & Hvu' & Hru & _). rewrite Hvu in Hvu'. injection Hvu' as <-. destruct (vrep_frame _ _ _ _ _ _ Hrest Hru) as [Hru1 _]; [eapply sep_of; eauto|]. eapply load_ok; eassumption. }
      destruct (negb (v_size v =? 0)).
      + destruct (G (2 * v_size v) ltac:(lia)) as (v1 & m1 & E1 & E2). rewrite !(bind_ok _ _ _ _ _ E1). cbn [read_arg]. rewrite (bind_ok _ _ _ _ _ E2), bind_ret. reflexivity.
      + destruct (v_size v) as [|k] eqn:Ek.
        * destruct (G 2 ltac:(lia)) as (v1 & m1 & E1 & E2). rewrite !(bind_ok _ _ _ _ _ E1). cbn [read_arg]. rewrite (bind_ok _ _ _ _ _ E2), bind_ret. reflexivity.
        * destruct (Nat.leb_spec (length l) 2).
          -- destruct (G 2 ltac:(lia)) as (v1 & m1 & E1 & E2). rewrite !(bind_ok _ _ _ _ _ E1). cbn [read_arg]. rewrite (bind_ok _ _ _ _ _ E2), bind_ret. reflexivity.
          -- unfold bind. destruct (v_resize triv 2 v (w_mem w)) as [[v1 m1]| | |] eqn:E1; try reflexivity. destruct (v_resize_ok triv 2 v l _ Hr Hok) as (v1' & m1' & Hrun & Hpost). rewrite Hrun in E1. injection E1 as -> ->.
             destruct Hpost as (_ & _ & _ & Hrest & _). destruct (winv_obj _ _ _ _ H Hu) as (vu' & Hvu' & Hru & _). rewrite Hvu in Hvu'. injection Hvu' as <-. destruct (vrep_frame _ _ _ _ _ _ Hrest Hru) as [Hru1 _]; [eapply sep_of; eauto|].
             cbn [read_arg]. rewrite (load_ok _ _ _ _ _ Hru1 Ha). reflexivity.
    - rewrite !bind_ret. cbn [read_arg]. rewrite bind_ret. rewrite (bind_ok _ _ _ _ _ (cell_read _ _ _ _ _ _ _ _ H Hu Hvu Ha)). reflexivity. }
  unfold bind, lift. rewrite E. reflexivity.
Qed.

Lemma push_full w s id l vu i a : winv w s -> s !! id = Some (LVec l (length l)) -> w_objs w !! id = Some vu -> l !! i = Some a -> push_at triv id (ARef (v_ptr vu) i) w = UB.
Proof.
  intros H Hs Hvu Ha. destruct (winv_obj _ _ _ _ H Hs) as (v & Hv & Hr & Hc). rewrite Hvu in Hv. injection Hv as <-. cbn [l_seq l_cap] in Hr, Hc. unfold push_at. rewrite (bind_ok _ _ _ _ _ (obj_ok _ _ _ Hvu)).
  apply bind_ub, lift_ub. eapply v_push_own_full; eauto. exact (wi_ok _ _ H).
Qed.

Lemma stk_push id x w xs : stk kstep (KPush id x) (w, xs) = (vecs (push_at triv id (AVal x)) ;;; ret RUnit) (w, xs).
Proof.
  unfold stk, vecs, bind. cbn [fst snd st_step st_push wunit wbind wrun w_step v_step]. unfold push_at, bind, ret. destruct (obj id w) as [[v w1]| | |]; try reflexivity.
  destruct (lift (v_push_back triv (AVal x) v) w1) as [[v' w2]| | |]; reflexivity.
Qed.
Lemma stk_empty id w xs s l cap : winv w s -> s !! id = Some (LVec l cap) -> stk_bool kstep (KEmpty id) (w, xs) = Ok (match l with [] => true | _ => false end, (w, xs)).
Proof.
  intros H Hs. destruct (winv_obj _ _ _ _ H Hs) as (v & Hv & Hr & _). cbn [l_seq] in Hr. pose proof (vrep_size _ _ _ Hr) as Hsz.
  unfold stk_bool, stk. cbn [st_step wempty wbind wrun w_step v_step]. unfold bind, obj, ret. cbn [fst snd]. rewrite Hv, Hsz. destruct l; reflexivity.
Qed.
Lemma vecs_ok {X} (m : M (world A) X) w xs r w' : m w = Ok (r, w') -> vecs m (w, xs) = Ok (r, (w', xs)).
Proof. intros E. unfold vecs. cbn [fst snd]. rewrite E. reflexivity. Qed.
Lemma vecs_ub {X} (m : M (world A) X) w xs : m w = UB -> vecs m (w, xs) = UB.
Proof. intros E. unfold vecs. cbn [fst snd]. rewrite E. reflexivity. Qed.
Lemma read_ok w s src u ucap vu i a xs : winv w s -> s !! src = Some (LVec u ucap) -> w_objs w !! src = Some vu -> u !! i = Some a ->
  vecs (lift (read_arg (ARef (v_ptr vu) i))) (w, xs) = Ok (a, (w, xs)).
Proof. intros H Hu Hvu Ha. apply vecs_ok. erewrite lift_ok by (exact (cell_read _ _ _ _ _ _ _ _ H Hu Hvu Ha)). rewrite world_same. reflexivity. Qed.


Lemma push_ref_step w s xs id src i l cap u ucap a xv : winv w s -> s !! id = Some (LVec l cap) -> s !! src = Some (LVec u ucap) -> u !! i = Some a -> xs !! id = Some xv ->
  f_step triv cmp eqb mvd (FPushRef id src i) (w, xs) =
    (if Nat.eqb id src && Nat.ltb cap (length l + needs cmp l a xv) then UB else f_step triv cmp eqb mvd (FDo (EPush id a)) (w, xs)) /\
  exists w' xs' s', f_step triv cmp eqb mvd (FDo (EPush id a)) (w, xs) = Ok (RUnit, (w', xs')) /\ winv w' s'.
Proof.
  intros H Hs Hu Ha Hx. destruct (winv_obj _ _ _ _ H Hu) as (vu & Hvu & _ & _).
  destruct (winv_obj _ _ _ _ H Hs) as (vi & Hvi & Hri & Hci). cbn [l_seq l_cap] in Hri, Hci. pose proof (vrep_cap _ _ _ Hri) as Hcap. rewrite Hci in Hcap.
  cbn [f_step e_step].
  rewrite (bind_ok _ _ _ _ _ (vecs_ok _ _ xs _ _ (obj_ok _ _ _ Hvu))). rewrite (bind_ok _ _ _ _ _ (read_ok _ _ _ _ _ _ _ _ xs H Hu Hvu Ha)).
  assert (Hid : id = src -> l = u /\ cap = ucap) by (intros ->; rewrite Hs in Hu; injection Hu as -> ->; auto).
  set (c := match l with [] => true | _ => cmp a xv end).
  assert (Hn : needs cmp l a xv = if c then 2 else 1) by (unfold needs, c; destruct l; reflexivity). rewrite Hn.
  (* The pushed copy. *)
  assert (EP : e_push kstep cmp id a (w, xs) = ((if c then stk kstep (KPush id xv) ;;; put_x id a else ret tt) ;;; stk kstep (KPush id a) ;;; ret tt) (w, xs)).
  { unfold e_push. rewrite (bind_ok _ _ _ _ _ (stk_empty id w xs s l cap H Hs)). unfold bind at 1. unfold get_x. cbn [snd]. rewrite Hx. unfold c. destruct l; reflexivity. }
  assert (FP : f_push triv cmp id (ARef (v_ptr vu) i) (w, xs) =
    ((if c then stk kstep (KPush id xv) ;;; a <- vecs (lift (read_arg (ARef (v_ptr vu) i))) ;; put_x id a else ret tt) ;;; vecs (push_at triv id (ARef (v_ptr vu) i))) (w, xs)).
  { unfold f_push. rewrite (bind_ok _ _ _ _ _ (stk_empty id w xs s l cap H Hs)). unfold bind at 1. unfold get_x. cbn [snd]. rewrite Hx. unfold c. destruct l; [rewrite bind_ret; reflexivity|].
    erewrite bind_ok; [reflexivity|]. rewrite (bind_ok _ _ _ _ _ (read_ok _ _ _ _ _ _ _ _ xs H Hu Hvu Ha)); reflexivity. }
  unfold bind at 1 2 3. rewrite EP, FP. clear EP FP. destruct c.
  - destruct (push_val w s id l cap xv H Hs) as (w1 & P1 & W1 & Hoth & Hroom & Hfull).
    assert (S1 : stk kstep (KPush id xv) (w, xs) = Ok (RUnit, (w1, xs))) by (rewrite stk_push, (bind_ok _ _ _ _ _ (vecs_ok _ _ xs _ _ P1)); reflexivity).
    set (s1 := <[id := LVec (l ++ [xv]) (cap_push (length l) cap)]> s) in *.
    assert (Hs1 : s1 !! id = Some (LVec (l ++ [xv]) (cap_push (length l) cap))) by apply lookup_insert.
    destruct (push_val w1 s1 id _ _ a W1 Hs1) as (w2 & P2 & W2 & _ & _ & _).
    assert (S2 : stk kstep (KPush id a) (w1, <[id := a]> xs) = Ok (RUnit, (w2, <[id := a]> xs))) by (rewrite stk_push, (bind_ok _ _ _ _ _ (vecs_ok _ _ _ _ _ P2)); reflexivity).
    assert (EQ : ((stk kstep (KPush id xv) ;;; put_x id a) ;;; stk kstep (KPush id a) ;;; ret tt) (w, xs) = Ok (tt, (w2, <[id := a]> xs))).
    { rewrite (bind_ok _ _ _ tt (w1, <[id := a]> xs)) by (rewrite (bind_ok _ _ _ _ _ S1); reflexivity). rewrite (bind_ok _ _ _ _ _ S2). reflexivity. }
    rewrite EQ. split; [|eexists _, _, _; split; [reflexivity|exact W2]].
    destruct (Nat.eqb_spec id src) as [E|Hne]; cbn [andb].
    + destruct (Hid E) as [-> ->]. subst src. destruct (Nat.ltb_spec ucap (length u + 2)) as [Hlt|Hge].
      * destruct (decide (length u = ucap)) as [Ef|Ef].
        -- unfold bind at 1 2. rewrite S1. unfold bind at 1. rewrite vecs_ub; [reflexivity|]. apply lift_ub. cbn [read_arg]. apply Hfull; [exact Ef| |exact Hvu]. intros ->. discriminate.
        -- destruct (Hroom ltac:(lia) vu Hvu) as (vu1 & Hvu1 & Hp1). assert (Hc1 : cap_push (length u) ucap = length (u ++ [xv])) by (unfold cap_push; destruct (Nat.eqb_spec (length u) ucap); [lia|]; rewrite app_length; cbn; lia).
           rewrite Hc1 in Hs1. assert (Ha1 : (u ++ [xv]) !! i = Some a) by (apply lookup_app_l_Some; exact Ha). rewrite <- Hp1.
           unfold bind at 1 2. rewrite S1. unfold bind at 1. rewrite (read_ok _ _ _ _ _ _ _ _ xs W1 Hs1 Hvu1 Ha1). unfold put_x. cbn [fst snd]. rewrite vecs_ub; [reflexivity|]. eapply push_full; eauto.
      * destruct (Hroom ltac:(lia) vu Hvu) as (vu1 & Hvu1 & Hp1). assert (Ha1 : (u ++ [xv]) !! i = Some a) by (apply lookup_app_l_Some; exact Ha). rewrite <- Hp1.
        unfold bind at 1 2. rewrite S1. unfold bind at 1. rewrite (read_ok _ _ _ _ _ _ _ _ xs W1 Hs1 Hvu1 Ha1). unfold put_x. cbn [fst snd].
        erewrite vecs_ok; [reflexivity|]. rewrite <- P2. eapply push_same; eauto. right. rewrite app_length. unfold cap_push. destruct (Nat.eqb_spec (length u) ucap); cbn; lia.
    + assert (Hu1 : s1 !! src = Some (LVec u ucap)) by (unfold s1; rewrite lookup_insert_ne by exact Hne; exact Hu). assert (Hvu1 : w_objs w1 !! src = Some vu) by (rewrite Hoth by congruence; exact Hvu).
      unfold bind at 1 2. rewrite S1. unfold bind at 1. rewrite (read_ok _ _ _ _ _ _ _ _ xs W1 Hu1 Hvu1 Ha). unfold put_x. cbn [fst snd].
      erewrite vecs_ok; [reflexivity|]. rewrite <- P2. eapply push_same; eauto.
  - destruct (push_val w s id l cap a H Hs) as (w2 & P2 & W2 & _ & _ & _).
    assert (EQ : ((ret tt) ;;; stk kstep (KPush id a) ;;; ret tt) (w, xs) = Ok (tt, (w2, xs))).
    { rewrite bind_ret. rewrite (bind_ok _ _ _ RUnit (w2, xs)); [reflexivity|]. rewrite stk_push, (bind_ok _ _ _ _ _ (vecs_ok _ _ _ _ _ P2)). reflexivity. }
    rewrite EQ. split; [|eexists _, _, _; split; [reflexivity|exact W2]].
    rewrite bind_ret. destruct (Nat.eqb_spec id src) as [E|Hne]; cbn [andb].
    + destruct (Hid E) as [-> ->]. subst src. destruct (Nat.ltb_spec ucap (length u + 1)) as [Hlt|Hge].
      * rewrite vecs_ub; [reflexivity|]. assert (ucap = length u) as -> by lia. eapply push_full; eauto.
      * erewrite vecs_ok; [reflexivity|]. rewrite <- P2. eapply push_same; eauto. right. lia.
    + erewrite vecs_ok; [reflexivity|]. rewrite <- P2. eapply push_same; eauto.
Qed.

Lemma plain_step w s id src i l cap u ucap a : winv w s -> s !! id = Some (LVec l cap) -> s !! src = Some (LVec u ucap) -> u !! i = Some a ->
  g_step triv (GPushRef id src i) w = (if Nat.eqb id src && Nat.ltb cap (length l + 1) then UB else g_step triv (GDo (KPush id a)) w) /\
  exists w' s', g_step triv (GDo (KPush id a)) w = Ok (RUnit, w') /\ winv w' s'.
Proof.
  intros H Hs Hu Ha. destruct (winv_obj _ _ _ _ H Hu) as (vu & Hvu & _ & _).
  destruct (winv_obj _ _ _ _ H Hs) as (vi & Hvi & Hri & Hci). cbn [l_seq l_cap] in Hri, Hci. pose proof (vrep_cap _ _ _ Hri) as Hcap. rewrite Hci in Hcap.
  destruct (push_val w s id l cap a H Hs) as (w2 & P2 & W2 & _).
  assert (EQ : g_step triv (GDo (KPush id a)) w = Ok (RUnit, w2)).
  { pose proof (stk_push id a w ∅) as E. unfold stk, vecs, bind in E. cbn [fst snd] in E. rewrite P2 in E. cbn [g_step]. destruct (wrun triv (st_step (KPush id a)) w) as [[r w']| | |]; try discriminate. injection E as -> ->. reflexivity. }
  rewrite EQ. split; [|eexists _, _; split; [reflexivity|exact W2]].
  cbn [g_step]. rewrite (bind_ok _ _ _ _ _ (obj_ok _ _ _ Hvu)).
  assert (E0 : lift (load (v_ptr vu) i) w = Ok (a, w)) by (erewrite lift_ok by (exact (cell_read _ _ _ _ _ _ _ _ H Hu Hvu Ha)); rewrite world_same; reflexivity).
  rewrite (bind_ok _ _ _ _ _ E0). destruct (Nat.eqb_spec id src) as [<-|Hne]; cbn [andb].
  - rewrite Hs in Hu. injection Hu as <- <-. destruct (Nat.ltb_spec cap (length l + 1)).
    + apply bind_ub. assert (cap = length l) as -> by lia. eapply push_full; eauto.
    + rewrite (bind_ok _ _ _ tt w2); [reflexivity|]. rewrite <- P2. eapply push_same; eauto. right. lia.
  - rewrite (bind_ok _ _ _ tt w2); [reflexivity|]. rewrite <- P2. eapply push_same; eauto.
Qed.

(** ** Reachable states *)
Lemma kstep_winv o w s r w' : winv w s -> wrun triv (st_step o) w = Ok (r, w') -> exists s', winv w' s'.
Proof.
  intros H E. pose proof (wrun_sim triv (st_step o) w s H) as S. rewrite E in S. destruct (lrun triv (st_step o) s) as [[r1 s1]| | |]; cbn in S; try discriminate.
  destruct S as (w1 & [= -> ->] & H1). eauto.
Qed.
Definition good (ew : eworld) : Prop := exists s, winv (fst ew) s.
Definition keeps {X} (m : M eworld X) : Prop := forall ew r ew', good ew -> m ew = Ok (r, ew') -> good ew'.
Lemma keeps_bind {X Y} (m : M eworld X) (k : X -> M eworld Y) : keeps m -> (forall x, keeps (k x)) -> keeps (bind m k).
Proof. intros Hm Hk ew r ew' Hg E. apply bind_inv in E as (x & ew1 & E1 & E2). exact (Hk x _ _ _ (Hm _ _ _ Hg E1) E2). Qed.
Lemma keeps_ret {X} (x : X) : keeps (ret x).
Proof. intros ew r ew' Hg [= _ <-]. exact Hg. Qed.
Lemma keeps_ub {X} : keeps (ub (X := X)).
Proof. intros ew r ew' Hg E. discriminate. Qed.
Lemma keeps_stk o : keeps (stk kstep o).
Proof.
  intros [w xs] r ew' [s H] E. unfold stk in E. cbn [fst snd] in *. destruct (wrun triv (st_step o) w) as [[r1 w1]| | |] eqn:E1; try discriminate. injection E as _ <-. exact (kstep_winv _ _ _ _ _ H E1).
Qed.
Lemma keeps_get id : keeps (get_x (S := world A) id).
Proof. intros [w xs] r ew' Hg E. unfold get_x in E. cbn [snd] in E. destruct (xs !! id); [|discriminate]. injection E as _ <-. exact Hg. Qed.
Lemma keeps_put id x : keeps (put_x (S := world A) id x).
Proof. intros [w xs] r ew' Hg [= _ <-]. exact Hg. Qed.
Lemma keeps_end id : keeps (end_x (A := A) (S := world A) id).
Proof. intros [w xs] r ew' Hg [= _ <-]. exact Hg. Qed.
Ltac kk := repeat first [apply keeps_bind; [|intros]|apply keeps_stk|apply keeps_get|apply keeps_put|apply keeps_end|apply keeps_ret|apply keeps_ub|case_match].
Lemma keeps_e o : keeps (e_step kstep cmp eqb mvd o).
Proof. destruct o; cbn [e_step]; unfold e_new, e_assign, e_move, e_push, e_pop, stk_val, stk_bool; kk. Qed.
Lemma src_cell w s src i r w' : winv w s -> (u <- obj src ;; lift (load (v_ptr u) i)) w = Ok (r, w') -> exists u ucap, s !! src = Some (LVec u ucap) /\ u !! i = Some r.
Proof.
  intros H E. apply bind_inv in E as (vu & w1 & E1 & E2). unfold obj in E1. destruct (w_objs w !! src) as [vu'|] eqn:Hvu; [|discriminate]. injection E1 as <- <-.
  pose proof (wi_rep _ _ H src) as Hr. rewrite Hvu in Hr. destruct (s !! src) as [[u ucap]|]; [|contradiction]. destruct Hr as [Hr _]. cbn [l_seq] in Hr. exists u, ucap. split; [reflexivity|].
  unfold lift in E2. destruct (load (v_ptr vu') i (w_mem w)) as [[a m]| | |] eqn:El; try discriminate. injection E2 as <- <-.
  destruct (u !! i) as [a'|] eqn:Ha; [rewrite (load_ok _ _ _ _ _ Hr Ha) in El; congruence|exfalso].
  apply lookup_ge_None in Ha. unfold load in El. destruct Hr as (Hsz & Hcp & Hp). destruct (v_ptr vu') as [b|]; [|discriminate]. rewrite (proj2 Hp) in El.
  destruct (cells u (v_cap vu') !! i) as [[z|]|] eqn:Ec; try discriminate. unfold cells in Ec. rewrite lookup_app_r in Ec by (rewrite map_length; exact Ha). apply lookup_replicate in Ec as [? _]. discriminate.
Qed.
Lemma keeps_f o : keeps (f_step triv cmp eqb mvd o).
Proof.
  destruct o as [o|id src i]; [apply keeps_e|]. intros [w xs] r ew' [s H] E. cbn [fst] in H. pose proof E as E0. cbn [f_step] in E. apply bind_inv in E as (vu & ew1 & E1 & E). apply bind_inv in E as (a & ew2 & E2 & E).
  assert (Hobj : obj src w = Ok (vu, w) /\ ew1 = (w, xs)).
  { unfold vecs in E1. cbn [fst snd] in E1. unfold obj in *. destruct (w_objs w !! src); [|discriminate]. injection E1 as <- <-. auto. }
  destruct Hobj as [Hobj ->]. assert (Hl : exists w2, lift (load (v_ptr vu) i) w = Ok (a, w2) /\ ew2 = (w2, xs)).
  { unfold vecs in E2. cbn [fst snd] in E2. destruct (lift (load (v_ptr vu) i) w) as [[a1 w2]| | |]; try discriminate. injection E2 as <- <-. eauto. }
  destruct Hl as (w2 & Hl & ->). destruct (src_cell w s src i a w2 H) as (u & ucap & Hu & Ha); [rewrite (bind_ok _ _ _ _ _ Hobj); exact Hl|].
  assert (w2 = w) as ->.
  { destruct (winv_obj _ _ _ _ H Hu) as (vu' & Hvu & _). unfold obj in Hobj. rewrite Hvu in Hobj. injection Hobj as <-.
    erewrite lift_ok in Hl by (exact (cell_read _ _ _ _ _ _ _ _ H Hu Hvu Ha)). rewrite world_same in Hl. congruence. }
  apply bind_inv in E as ([] & ew3 & E3 & E). unfold f_push in E3. apply bind_inv in E3 as (e & ew4 & E4 & E3). apply bind_inv in E3 as (xv & ew5 & E5 & _).
  destruct (s !! id) as [[l cap]|] eqn:Hs.
  2:{ exfalso. pose proof (winv_absent _ _ _ H Hs) as Hv. unfold stk_bool, stk in E4. cbn [st_step wempty wbind wrun w_step v_step] in E4. unfold bind, obj in E4. cbn [fst snd] in E4. rewrite Hv in E4. discriminate. }
  rewrite (stk_empty id w xs s l cap H Hs) in E4. injection E4 as <- <-. unfold get_x in E5. cbn [snd] in E5. destruct (xs !! id) as [xv'|] eqn:Hx; [|discriminate].
  destruct (push_ref_step w s xs id src i l cap u ucap a xv' H Hs Hu Ha Hx) as [P (w' & xs' & s' & P2 & H')]. rewrite P in E0. destruct (_ && _); [discriminate|]. rewrite P2 in E0. injection E0 as _ <-. exists s'. exact H'.
Qed.
Lemma run_good ops : forall ew rs ew', good ew -> mrun (f_step triv cmp eqb mvd) ops ew = Ok (rs, ew') -> good ew'.
Proof.
  induction ops as [|o ops IH]; intros ew rs ew' Hg E; cbn [mrun] in E; [injection E as _ <-; exact Hg|]. apply bind_inv in E as (r & ew1 & E1 & E). apply bind_inv in E as (rs1 & ew2 & E2 & E).
  injection E as _ <-. exact (IH _ _ _ (keeps_f o _ _ _ Hg E1) E2).
Qed.
Lemma good_init : good (world_init, ∅).
Proof. exists ∅. apply winv_init. Qed.
Lemma plain_good ops : forall w rs w' s, winv w s -> mrun (g_step triv) ops w = Ok (rs, w') -> exists s', winv w' s'.
Proof.
  induction ops as [|o ops IH]; intros w rs w' s H E; cbn [mrun] in E; [injection E as _ <-; eauto|]. apply bind_inv in E as (r & w1 & E1 & E). apply bind_inv in E as (rs1 & w2 & E2 & E).
  injection E as _ <-. assert (H1 : exists s1, winv w1 s1); [|destruct H1 as [s1 H1]; exact (IH _ _ _ _ H1 E2)].
  destruct o as [o|id src i]; [exact (kstep_winv _ _ _ _ _ H E1)|]. pose proof E1 as E0. cbn [g_step] in E1. apply bind_inv in E1 as (vu & w3 & E3 & E1). apply bind_inv in E1 as (a & w4 & E4 & E1).
  assert (w3 = w) as -> by (unfold obj in E3; destruct (w_objs w !! src); [|discriminate]; injection E3 as _ <-; reflexivity).
  destruct (src_cell w s src i a w4 H) as (u & ucap & Hu & Ha); [rewrite (bind_ok _ _ _ _ _ E3); exact E4|].
  destruct (s !! id) as [[l cap]|] eqn:Hs.
  - destruct (plain_step w s id src i l cap u ucap a H Hs Hu Ha) as [P (w' & s' & P2 & H')]. rewrite P in E0. destruct (_ && _); [discriminate|]. rewrite P2 in E0. injection E0 as _ <-. eauto.
  - exfalso. destruct (winv_obj _ _ _ _ H Hu) as (vu' & Hvu & _). unfold obj in E3. rewrite Hvu in E3. injection E3 as <-. erewrite lift_ok in E4 by (exact (cell_read _ _ _ _ _ _ _ _ H Hu Hvu Ha)). rewrite world_same in E4. injection E4 as <-.
    apply bind_inv in E1 as ([] & w5 & E5 & _). unfold push_at in E5. apply bind_inv in E5 as (v & w6 & E6 & _). rewrite (obj_ub _ _ _ H Hs) in E6. discriminate.
Qed.

(** ** The theorems *)
Lemma after {W O P} (step : O -> M W P) (ops : list O) (o o' : O) (ops2 : list O) (w0 : W) (rs : list P) (w : W) : mrun step ops w0 = Ok (rs, w) -> step o w = step o' w -> mrun step (ops ++ o :: ops2) w0 = mrun step (ops ++ o' :: ops2) w0.
Proof. intros E Eo. rewrite !(mrun_app _ _ _ _ _ _ E). cbn [mrun]. unfold bind. rewrite Eo. reflexivity. Qed.
Lemma after_ub {W O P} (step : O -> M W P) (ops : list O) (o : O) (ops2 : list O) (w0 : W) (rs : list P) (w : W) : mrun step ops w0 = Ok (rs, w) -> step o w = UB -> mrun step (ops ++ o :: ops2) w0 = UB.
Proof. intros E Eo. rewrite !(mrun_app _ _ _ _ _ _ E). cbn [mrun]. unfold bind. rewrite Eo. reflexivity. Qed.

Lemma max_ref ops rs w xs id src i l cap u ucap a xv ops2 : mrun (f_step triv cmp eqb mvd) ops (world_init, ∅) = Ok (rs, (w, xs)) ->
  view w !! id = Some (LVec l cap) -> view w !! src = Some (LVec u ucap) -> u !! i = Some a -> xs !! id = Some xv ->
  mrun (f_step triv cmp eqb mvd) (ops ++ FPushRef id src i :: ops2) (world_init, ∅) =
  if Nat.eqb id src && Nat.ltb cap (length l + needs cmp l a xv) then UB else mrun (f_step triv cmp eqb mvd) (ops ++ FDo (EPush id a) :: ops2) (world_init, ∅).
Proof.
  intros E Hs Hu Ha Hx. destruct (run_good _ _ _ _ good_init E) as [s H]. cbn [fst] in H. rewrite (winv_view _ _ H) in Hs, Hu.
  destruct (push_ref_step w s xs id src i l cap u ucap a xv H Hs Hu Ha Hx) as [P _]. destruct (_ && _); [exact (after_ub _ _ _ _ _ _ _ E P)|exact (after _ _ _ _ _ _ _ _ E P)].
Qed.
Lemma plain_ref ops rs w id src i l cap u ucap a ops2 : mrun (g_step triv) ops world_init = Ok (rs, w) ->
  view w !! id = Some (LVec l cap) -> view w !! src = Some (LVec u ucap) -> u !! i = Some a ->
  mrun (g_step triv) (ops ++ GPushRef id src i :: ops2) world_init =
  if Nat.eqb id src && Nat.ltb cap (length l + 1) then UB else mrun (g_step triv) (ops ++ GDo (KPush id a) :: ops2) world_init.
Proof.
  intros E Hs Hu Ha. destruct (plain_good _ _ _ _ _ winv_init E) as [s H]. rewrite (winv_view _ _ H) in Hs, Hu.
  destruct (plain_step w s id src i l cap u ucap a H Hs Hu Ha) as [P _]. destruct (_ && _); [exact (after_ub _ _ _ _ _ _ _ E P)|exact (after _ _ _ _ _ _ _ _ E P)].
Qed.
End P.
