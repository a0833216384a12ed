(** Histories of calls on vectors, iterators and references. *)
From Verif Require Import Base VectorModel VectorSpec VectorProofs VecProg VectorWorld VecIterModel VecIterSpec Hist VecIterProofs.

Section Histories.
Context {A : Type} (triv : bool) (eqb : A -> A -> bool).
Notation state := (lworld A * gmap nat pos)%type.

Definition yinv (s : state) (w : vworld A) : Prop :=
  winv (fst w) (fst s) /\
  forall k, match snd w !! k, snd s !! k with
            | Some p, Some q => rvar (fst w) p q
            | None, None => True
            | _, _ => False
            end.

Definition ysim (r : res (yout A * state)) (c : res (yout A * vworld A)) : Prop :=
  match r with
  | Ok (x, s') => exists w', c = Ok (x, w') /\ yinv s' w'
  | Abort => c = Abort
  | UB => c = UB
  | Diverge => c = Diverge
  end.

Lemma yinv_init : yinv (∅, ∅) y_init.
Proof. split; [apply winv_init|]. intros k. simpl. rewrite !lookup_empty. exact I. Qed.

Lemma on_vecs_ok {X} (f : M (world A) X) (w : vworld A) x w' :
  f (fst w) = Ok (x, w') -> on_vecs f w = Ok (x, (w', snd w)).
Proof. intros H. unfold on_vecs. rewrite H. reflexivity. Qed.
Lemma on_mem_ok {X} (f : M (mem A) X) (w : vworld A) x m' :
  f (w_mem (fst w)) = Ok (x, m') -> on_mem f w = Ok (x, (World m' (w_objs (fst w)), snd w)).
Proof. intros H. unfold on_mem, on_vecs, lift. rewrite H. reflexivity. Qed.
Lemma on_mem_same {X} (f : M (mem A) X) (w : vworld A) x :
  f (w_mem (fst w)) = Ok (x, w_mem (fst w)) -> on_mem f w = Ok (x, w).
Proof. intros H. rewrite (on_mem_ok _ _ _ _ H), world_same. destruct w; reflexivity. Qed.
Lemma on_mem_ub {X} (f : M (mem A) X) (w : vworld A) : f (w_mem (fst w)) = UB -> on_mem f w = UB.
Proof. intros H. unfold on_mem, on_vecs, lift. rewrite H. reflexivity. Qed.
Lemma on_mem_abort {X} (f : M (mem A) X) (w : vworld A) : f (w_mem (fst w)) = Abort -> on_mem f w = Abort.
Proof. intros H. unfold on_mem, on_vecs, lift. rewrite H. reflexivity. Qed.

(** Looking a vector or a variable up. *)
Lemma with_obj {Y} s w id (k : vec -> M (vworld A) Y) : yinv s w ->
  match fst s !! id with
  | Some l => exists v, w_objs (fst w) !! id = Some v /\ vrep (w_mem (fst w)) v (l_seq l) /\ v_cap v = l_cap l /\
                (v <- on_vecs (obj id) ;; k v) w = k v w
  | None => (v <- on_vecs (obj id) ;; k v) w = UB
  end.
Proof.
  intros [H _]. destruct (fst s !! id) as [l|] eqn:El.
  - destruct (winv_obj _ _ _ _ H El) as (v & Hv & Hr & Hc). exists v. split_and!; auto.
    apply bind_ok. rewrite (on_vecs_ok _ _ _ _ (obj_ok _ _ _ Hv)). destruct w; reflexivity.
  - apply bind_ub. unfold on_vecs. rewrite (obj_ub _ _ _ H El). reflexivity.
Qed.
Lemma with_pvar {Y} s w j (k : ptr -> M (vworld A) Y) : yinv s w ->
  match snd s !! j with
  | Some q => exists p, rvar (fst w) p q /\ (p <- var j ;; k p) w = k p w
  | None => (p <- var j ;; k p) w = UB
  end.
Proof.
  intros [_ H]. specialize (H j). destruct (snd s !! j) as [q|], (snd w !! j) as [p|] eqn:E; try contradiction.
  - exists p. split; [exact H|]. apply bind_ok. unfold var. rewrite E. reflexivity.
  - apply bind_ub. unfold var. rewrite E. reflexivity.
Qed.

(** Setting a variable. *)
Lemma yinv_set s w k p q : yinv s w -> rvar (fst w) p q ->
  yinv (fst s, <[k := q]> (snd s)) (fst w, <[k := p]> (snd w)).
Proof.
  intros [H Hv] Hr. split; [exact H|]. intros j. simpl. destruct (Nat.eq_dec k j) as [<-|Hne].
  - rewrite !lookup_insert. exact Hr.
  - rewrite !lookup_insert_ne by assumption. apply Hv.
Qed.
(** Changing the vectors. *)
Lemma yinv_vecs s w w' s' f : yinv s w -> winv w' s' ->
  (forall p q, rvar (fst w) p q -> rvar w' p (f q)) -> yinv (s', f <$> snd s) (w', snd w).
Proof.
  intros [_ Hv] Hw Hf. split; [exact Hw|]. intros j. simpl. rewrite lookup_fmap. specialize (Hv j).
  destruct (snd s !! j) as [q|], (snd w !! j) as [p|]; try contradiction; simpl; auto.
Qed.

Lemma set_sim s w k p q : yinv s w -> rvar (fst w) p q ->
  ysim (setting s k q) ((set_var k p ;;; ret (YOut RUnit)) w).
Proof. intros H Hr. eexists. split; [reflexivity|]. apply yinv_set; assumption. Qed.

Lemma pos_of_ok s w l v id i : yinv s w -> w_objs (fst w) !! id = Some v -> vrep (w_mem (fst w)) v (l_seq l) -> v_cap v = l_cap l ->
  i <= v_size v -> rvar (fst w) (v_ptr v, i) (pos_of l id i).
Proof.
  intros H Hv (Hs & Hle & Hp) Hc Hi. unfold pos_of. destruct (Nat.eqb_spec (l_cap l) 0) as [E|E].
  - destruct (v_ptr v) as [b|] eqn:Eb; [lia|]. simpl. f_equal. lia.
  - destruct (v_ptr v) as [b|] eqn:Eb; [|lia]. exists v, b. split_and!; auto. lia.
Qed.

Lemma v_step_world o w s : yinv s w -> ysim (ys_step triv eqb (YVec o) s) (y_step triv eqb (YVec o) w).
Proof.
  intros H. cbn [ys_step y_step]. pose proof (v_step_sim triv o _ _ (proj1 H)) as Hsim.
  destruct (lv_step triv o (fst s)) as [[r s']| | |]; cbn [sim_res] in Hsim.
  - destruct Hsim as (w' & Hrun & Hw'). rewrite (bind_ok _ _ _ _ _ (on_vecs_ok _ _ _ _ Hrun)).
    eexists. split; [reflexivity|]. destruct (v_step_follow triv o _ _ _ _ _ (proj1 H) Hw' Hrun) as [He Hf].
    apply (yinv_vecs s w); auto. intros p [id i| |] Hr; cbn [follow_pos].
    + apply Hf. exact Hr.
    + exact Hr.
    + eapply rvar_gone; eassumption.
  - apply bind_abort. unfold on_vecs. rewrite Hsim. reflexivity.
  - apply bind_ub. unfold on_vecs. rewrite Hsim. reflexivity.
  - unfold ysim, bind, on_vecs. rewrite Hsim. reflexivity.
Qed.

Lemma add_sim s w p q z (k : ptr -> M (vworld A) (yout A)) (k' : pos -> res (yout A * state)) :
  yinv s w -> rvar (fst w) p q -> (forall p' q', rvar (fst w) p' q' -> ysim (k' q') (k p' w)) ->
  ysim (orub (pos_add (fst s) q z) k') ((r <- on_mem (p_add p z) ;; k r) w).
Proof.
  intros H Hr Hk. pose proof (p_add_ok _ _ (proj1 H) _ _ z Hr) as Ha.
  destruct (pos_add (fst s) q z) as [q'|]; cbn [orub].
  - destruct Ha as (p' & Hrun & Hr'). rewrite (bind_ok _ _ _ _ _ (on_mem_same _ _ _ Hrun)). apply Hk, Hr'.
  - apply bind_ub, on_mem_ub, Ha.
Qed.

Lemma eq_sim s w p q p' q' (g : bool -> bool) : yinv s w -> rvar (fst w) p q -> rvar (fst w) p' q' ->
  ysim (orub (pos_diff q q') (fun d => Ok (YOut (RBool (g (d =? 0)%Z)), s)))
       ((b <- on_mem (p_eq p p') ;; ret (YOut (RBool (g b)))) w).
Proof.
  intros H Hr Hr'. pose proof (p_eq_ok _ _ (proj1 H) _ _ _ _ Hr Hr') as Ha.
  destruct (pos_diff q q') as [d|]; cbn [orub].
  - rewrite (bind_ok _ _ _ _ _ (on_mem_same _ _ _ Ha)). exists w. auto.
  - apply bind_ub, on_mem_ub, Ha.
Qed.

Lemma vec_fuel (w : world A) s id v b l i : winv w s -> w_objs w !! id = Some v -> v_ptr v = Some b -> s !! id = Some l ->
  p_fuel (Some b, i) (w_mem w) = Ok (S (l_cap l), w_mem w).
Proof.
  intros H Hv Hb Hl. destruct (winv_obj _ _ _ _ H Hl) as (v' & Hv' & Hrep & Hc). rewrite Hv in Hv'. injection Hv' as <-.
  pose proof (vrep_cap _ _ _ Hrep) as Hcap.
  destruct Hrep as (_ & _ & Hx). rewrite Hb in Hx. destruct Hx as [_ Hx]. unfold p_fuel. cbn [fst].
  rewrite Hx, cells_length by lia. rewrite Hc. reflexivity.
Qed.

(** Loops whose ends are not in the same storage do not start. *)
Lemma find_apart s w p q p' q' f a : yinv s w -> rvar (fst w) p q -> rvar (fst w) p' q' -> pos_diff q q' = None ->
  p_find eqb f a p p' (w_mem (fst w)) = UB.
Proof.
  intros H Hr Hr' Hd. pose proof (p_eq_ok _ _ (proj1 H) _ _ _ _ Hr Hr') as Ha. rewrite Hd in Ha.
  destruct f; cbn [p_find]; apply bind_ub, Ha.
Qed.
Lemma each_apart s w p q p' q' f cb : yinv s w -> rvar (fst w) p q -> rvar (fst w) p' q' -> pos_diff q q' = None ->
  p_each f cb p p' (w_mem (fst w)) = UB.
Proof.
  intros H Hr Hr' Hd. pose proof (p_eq_ok _ _ (proj1 H) _ _ _ _ Hr Hr') as Ha. rewrite Hd in Ha.
  destruct f; cbn [p_each]; apply bind_ub, Ha.
Qed.
Lemma fuel_ok p (w : vworld A) : exists n, p_fuel p (w_mem (fst w)) = Ok (n, w_mem (fst w)).
Proof. unfold p_fuel. destruct (fst p) as [b|]; [destruct (m_blocks _ !! b)|]; eauto. Qed.
Lemma pos_diff_find l a q q' : pos_diff q q' = None -> pos_find (A:=A) eqb l a q q' = None.
Proof.
  destruct q as [id i| |], q' as [id' j| |]; simpl; auto; [|discriminate].
  destruct (Nat.eqb id id'); [discriminate|]. destruct (l !! id); reflexivity.
Qed.
Lemma pos_diff_each l cb q q' : pos_diff q q' = None -> pos_each (A:=A) l cb q q' = None.
Proof.
  destruct q as [id i| |], q' as [id' j| |]; simpl; auto; [|discriminate].
  destruct (Nat.eqb id id'); [discriminate|]. destruct (l !! id); reflexivity.
Qed.

Lemma find_sim s w k p q p' q' a : yinv s w -> rvar (fst w) p q -> rvar (fst w) p' q' ->
  ysim (orub (pos_find eqb (fst s) a q q') (setting s k))
       ((n <- on_mem (p_fuel p) ;; r <- on_mem (p_find eqb n a p p') ;; set_var k r ;;; ret (YOut RUnit)) w).
Proof.
  intros H Hr Hr'. destruct (pos_diff q q') as [d|] eqn:Hd.
  2:{ rewrite (pos_diff_find _ _ _ _ Hd). destruct (fuel_ok p w) as [n Hn].
      rewrite (bind_ok _ _ _ _ _ (on_mem_same _ _ _ Hn)). apply bind_ub, on_mem_ub. eapply find_apart; eassumption. }
  destruct q as [id i| |], q' as [id' j| |]; try discriminate; cbn [pos_find pos_diff] in *.
  - destruct (Nat.eqb_spec id id') as [<-|]; [|discriminate]. cbn [negb].
    destruct (at_vec _ _ (proj1 H) _ _ _ Hr) as (v & b & l & Hv & Hb & -> & Hi & Hl & Hrep & Hc & _).
    destruct (at_vec _ _ (proj1 H) _ _ _ Hr') as (v' & b' & l' & Hv' & Hb' & -> & Hj & _).
    rewrite Hv in Hv'. injection Hv' as <-. rewrite Hb in Hb'. injection Hb' as <-. rewrite Hl.
    rewrite (bind_ok _ _ _ _ _ (on_mem_same _ _ _ (vec_fuel _ _ _ _ _ _ i (proj1 H) Hv Hb Hl))).
    pose proof (p_find_ok eqb _ _ (proj1 H) id v b l j a Hv Hb Hl ltac:(lia) (S (l_cap l)) i ltac:(lia) ltac:(lia)) as Hf.
    destruct (first_at eqb a (window (l_seq l) i j)) as [m|] eqn:Ew.
    + rewrite (bind_ok _ _ _ _ _ (on_mem_same _ _ _ Hf)). cbn [orub]. apply set_sim; [exact H|].
      exists v, b. split_and!; auto.
      assert (Hlt : m < length (window (l_seq l) i j)).
      { clear -Ew. revert m Ew. induction (window (l_seq l) i j) as [|x xs IH]; intros m Ew; simpl in *; [discriminate|].
        destruct (eqb x a); [injection Ew as <-; lia|]. destruct (first_at eqb a xs) as [m'|]; [|discriminate].
        injection Ew as <-. specialize (IH _ eq_refl). lia. }
      assert (length (window (l_seq l) i j) <= length (l_seq l) - i).
      { unfold window. destruct (Nat.leb i j); [rewrite firstn_length|]; rewrite skipn_length; lia. }
      pose proof (vrep_cap _ _ _ Hrep). lia.
    + destruct (arrives (l_seq l) i j); cbn [orub].
      * rewrite (bind_ok _ _ _ _ _ (on_mem_same _ _ _ Hf)). apply set_sim; assumption.
      * apply bind_ub, on_mem_ub, Hf.
  - cbn in Hr, Hr'. subst p p'. cbn [orub]. destruct w as [[m os] vs]. apply set_sim with (p := (None, 0)); [exact H|reflexivity].
Qed.

Lemma each_sim s w p q p' q' cb : yinv s w -> rvar (fst w) p q -> rvar (fst w) p' q' ->
  ysim (orub (pos_each (fst s) cb q q') (fun x => Ok (YOut (RList (fst x)), (snd x, snd s))))
       ((n <- on_mem (p_fuel p) ;; l <- on_mem (p_each n cb p p') ;; ret (YOut (RList l))) w).
Proof.
  intros H Hr Hr'. destruct (pos_diff q q') as [d|] eqn:Hd.
  2:{ rewrite (pos_diff_each _ _ _ _ Hd). destruct (fuel_ok p w) as [n Hn].
      rewrite (bind_ok _ _ _ _ _ (on_mem_same _ _ _ Hn)). apply bind_ub, on_mem_ub. eapply each_apart; eassumption. }
  destruct q as [id i| |], q' as [id' j| |]; try discriminate; cbn [pos_each pos_diff] in *.
  - destruct (Nat.eqb_spec id id') as [<-|]; [|discriminate]. cbn [andb].
    destruct (at_vec _ _ (proj1 H) _ _ _ Hr) as (v & b & l & Hv & Hb & -> & Hi & Hl & Hrep & Hc & _).
    destruct (at_vec _ _ (proj1 H) _ _ _ Hr') as (v' & b' & l' & Hv' & Hb' & -> & Hj & _).
    rewrite Hv in Hv'. injection Hv' as <-. rewrite Hb in Hb'. injection Hb' as <-. rewrite Hl.
    rewrite (bind_ok _ _ _ _ _ (on_mem_same _ _ _ (vec_fuel _ _ _ _ _ _ i (proj1 H) Hv Hb Hl))).
    pose proof (p_each_ok id v b j cb Hb (S (l_cap l)) i _ _ l (proj1 H) Hv Hl ltac:(lia) ltac:(lia) ltac:(lia)) as Hf.
    destruct (arrives (l_seq l) i j); cbn [orub].
    + destruct Hf as (m' & Hrun & Hw & He). rewrite (bind_ok _ _ _ _ _ (on_mem_ok _ _ _ _ Hrun)).
      eexists. split; [reflexivity|]. cbn [fst snd].
      replace (snd s) with ((fun q : pos => q) <$> snd s) at 1 by (apply map_fmap_id). apply (yinv_vecs s w); [exact H|exact Hw|].
      intros p0 q0. apply rvar_mem. exact He.
    + apply bind_ub, on_mem_ub, Hf.
  - cbn in Hr, Hr'. subst p p'. cbn [orub]. exists w. split; [|destruct s; exact H].
    destruct w as [[m os] vs]. reflexivity.
Qed.
Lemma write_sim s w p q a : yinv s w -> rvar (fst w) p q ->
  ysim (orub (pos_get (fst s) q) (fun _ =>
          match q with PAt id i => Ok (YOut RUnit, (set_at (fst s) id i a, snd s)) | _ => UB end))
       ((on_mem (store (fst p) (snd p) a) ;;; ret (YOut RUnit)) w).
Proof.
  intros H Hr. destruct (pos_get (fst s) q) as [x|] eqn:Eg; cbn [orub].
  - destruct q as [id i| |]; try discriminate.
    destruct (store_pos _ _ (proj1 H) p id i a x Hr Eg) as (m' & Hrun & Hw & He).
    rewrite (bind_ok _ _ _ _ _ (on_mem_ok _ _ _ _ Hrun)). eexists. split; [reflexivity|].
    replace (snd s) with ((fun q : pos => q) <$> snd s) at 1 by (apply map_fmap_id). apply (yinv_vecs s w); [exact H|exact Hw|].
    intros p0 q0. apply rvar_mem. exact He.
  - apply bind_ub, on_mem_ub. eapply store_pos_ub; [exact (proj1 H)|eassumption..].
Qed.

(** A push changes the vectors as OPush does whatever its argument is. *)
Lemma push_world s w id v l x a m' v' : yinv s w -> w_objs (fst w) !! id = Some v -> fst s !! id = Some l ->
  v_push_back triv x v (w_mem (fst w)) = Ok (v', m') ->
  winv (World m' (<[id := v']> (w_objs (fst w)))) (<[id := LVec (l_seq l ++ [a]) (cap_push (length (l_seq l)) (l_cap l))]> (fst s)) ->
  yinv (<[id := LVec (l_seq l ++ [a]) (cap_push (length (l_seq l)) (l_cap l))]> (fst s), follow_pos (OPush id a) (fst s) <$> snd s)
       (World m' (<[id := v']> (w_objs (fst w))), snd w).
Proof.
  intros H Hv Hl Hrun Hw.
  assert (He : elder (fst w) (World m' (<[id := v']> (w_objs (fst w))))) by (apply set_elder; eapply ages_push; eassumption).
  apply (yinv_vecs s w); [exact H|exact Hw|]. intros p [id' i| |] Hr; cbn [follow_pos follow].
  - pose proof (push_storage triv _ _ _ _ _ Hrun) as Hst. unfold of_vec, push_replaces. rewrite Hl.
    destruct (winv_obj _ _ _ _ (proj1 H) Hl) as (v0 & Hv0 & Hrep & Hc). rewrite Hv in Hv0. injection Hv0 as <-.
    pose proof (vrep_size _ _ _ Hrep) as Hsz. pose proof (vrep_cap _ _ _ Hrep) as Hcp.
    destruct (Nat.eqb_spec id id') as [<-|Hne]; cbn [andb]; [|apply upd_other; auto].
    destruct (Nat.ltb_spec (v_cap v) (v_size v + 1)); destruct (Nat.eqb_spec (length (l_seq l)) (l_cap l)); try lia.
    + eapply upd_lost; eauto. exact (proj1 H).
    + destruct Hst. eapply upd_keep; eauto.
  - exact Hr.
  - eapply rvar_gone; eassumption.
Qed.

Lemma push_sim s w id v l p q : yinv s w -> rvar (fst w) p q ->
  w_objs (fst w) !! id = Some v -> fst s !! id = Some l ->
  ysim (orub (pos_get (fst s) q) (fun a =>
          if (match q with PAt src _ => Nat.eqb src id | _ => false end) && push_replaces l then UB
          else Ok (YOut RUnit,
            (<[id := LVec (l_seq l ++ [a]) (cap_push (length (l_seq l)) (l_cap l))]> (fst s),
             follow_pos (OPush id a) (fst s) <$> snd s))))
       ((on_mem (load (fst p) (snd p)) ;;;
         v' <- on_mem (v_push_back triv (ARef (fst p) (snd p)) v) ;;
         on_vecs (set_obj id v') ;;; ret (YOut RUnit)) w).
Proof.
  intros H Hr Hv Hl. pose proof (load_pos _ _ (proj1 H) _ _ Hr) as Hld.
  destruct (pos_get (fst s) q) as [a|] eqn:Eg; cbn [orub]; [|apply bind_ub, on_mem_ub, Hld].
  rewrite (bind_ok _ _ _ _ _ (on_mem_same _ _ _ Hld)).
  destruct q as [src i| |]; try discriminate.
  destruct (at_vec _ _ (proj1 H) _ _ _ Hr) as (u & b & lu & Hu & Hb & -> & Hi & Hlu & Hru & Hcu & _).
  cbn [pos_get] in Eg. rewrite Hlu, nth_error_lookup in Eg. cbn [fst snd].
  destruct (winv_obj _ _ _ _ (proj1 H) Hl) as (v0 & Hv0 & Hrep & Hc). rewrite Hv in Hv0. injection Hv0 as <-.
  pose proof (vrep_cap _ _ _ Hrep) as Hcap. pose proof (wi_ok _ _ (proj1 H)) as Hok.
  unfold push_replaces. destruct (Nat.eqb_spec src id) as [->|Hne]; cbn [andb].
  - rewrite Hv in Hu. injection Hu as <-. rewrite Hl in Hlu. injection Hlu as <-.
    destruct (Nat.eqb_spec (length (l_seq l)) (l_cap l)) as [Hf|Hf].
    + apply bind_ub, on_mem_ub. rewrite <- Hb. apply (v_push_own_full triv v (l_seq l) _ i a); auto. congruence.
    + destruct (v_push_own_room triv v (l_seq l) _ i a Hrep Hok Eg ltac:(lia)) as (v' & m' & Hrun & Hpost).
      rewrite Hb in Hrun. rewrite (bind_ok _ _ _ _ _ (on_mem_ok _ _ _ _ Hrun)).
      eexists. split; [reflexivity|]. apply (push_world s w id v l _ a m' v' H Hv Hl Hrun).
      unfold cap_push. destruct (Nat.eqb_spec (length (l_seq l)) (l_cap l)); [congruence|].
      rewrite Hc in Hpost. exact (winv_update _ _ _ _ _ _ _ _ _ (proj1 H) Hv Hpost).
  - destruct (v_push_back_gen triv (ARef (Some b) i) a v (l_seq l) (w_mem (fst w)) Hrep Hok) as (v' & m' & Hrun & Hpost).
    { intros m1 v1 c1 k1 (_ & _ & _ & Hrest & _). cbn [read_arg].
      destruct (vrep_frame _ _ _ _ _ _ Hrest Hru) as [Hru1 _].
      { eapply sep_of; eauto. exact (proj1 H). }
      rewrite <- Hb. eapply load_ok; eassumption. }
    rewrite (bind_ok _ _ _ _ _ (on_mem_ok _ _ _ _ Hrun)). eexists. split; [reflexivity|].
    apply (push_world s w id v l _ a m' v' H Hv Hl Hrun). rewrite <- cap_push_grow, Hc in Hpost by lia. exact (winv_update _ _ _ _ _ _ _ _ _ (proj1 H) Hv Hpost).
Qed.

Lemma ref_sim s w k id z v l : yinv s w -> w_objs (fst w) !! id = Some v -> fst s !! id = Some l ->
  vrep (w_mem (fst w)) v (l_seq l) -> v_cap v = l_cap l ->
  ysim (at_index (l_seq l) z (fun i => setting s k (PAt id i)))
       ((p <- on_mem (v_ref v z) ;; set_var k p ;;; ret (YOut RUnit)) w).
Proof.
  intros H Hv Hl Hrep Hc. unfold at_index, v_ref. destruct (py_index (length (l_seq l)) z) as [i|] eqn:Hk.
  - destruct (v_index_ok _ _ _ _ _ Hrep Hk) as [Hi Hlt].
    assert (Hrun : (i0 <- v_index v z ;; if (i0 <? 0)%Z then ub else ret (v_ptr v, Z.to_nat i0)) (w_mem (fst w)) =
      Ok ((v_ptr v, i), w_mem (fst w))).
    { rewrite (bind_ok _ _ _ _ _ Hi). destruct (Z.ltb_spec (Z.of_nat i) 0); [lia|]. rewrite Nat2Z.id. reflexivity. }
    rewrite (bind_ok _ _ _ _ _ (on_mem_same _ _ _ Hrun)). apply set_sim; [exact H|].
    destruct Hrep as (Hs & Hle & Hp). destruct (v_ptr v) as [b|] eqn:Eb; [|lia].
    exists v, b. split_and!; auto. lia.
  - destruct (Z.leb_spec (Z.of_nat (length (l_seq l))) z).
    + apply bind_abort, on_mem_abort, bind_abort, (v_index_abort _ _ _ _ Hrep). lia.
    + destruct (v_index_neg _ _ _ z Hrep) as [Hix Hneg]; [apply py_index_none; [assumption|lia]|].
      apply bind_ub, on_mem_ub. rewrite (bind_ok _ _ _ _ _ Hix).
      destruct (Z.ltb_spec (Z.of_nat (length (l_seq l)) + z) 0); [reflexivity|lia].
Qed.

Local Ltac ob H id := let B := fresh "B" in
  match goal with |- ysim _ ((v <- on_vecs (obj id) ;; @?k v) _) => pose proof (with_obj _ _ id k H) as B end;
  unfold lwith; destruct (_ !! id) as [l|] eqn:El; [|exact B]; destruct B as (v & Hv & Hrep & Hc & ->).
Local Ltac vr H j p Hr := let B := fresh "B" in
  match goal with |- ysim _ ((v <- var j ;; @?k v) _) => pose proof (with_pvar _ _ j k H) as B end;
  unfold with_var; destruct (_ !! j) as [?q|] eqn:?; [|exact B]; destruct B as (p & Hr & ->).

Lemma y_step_sim o s w : yinv s w -> ysim (ys_step triv eqb o s) (y_step triv eqb o w).
Proof.
  intros H. destruct o as [o|id|k id|k id|k id z|k j|k|k|k j|k j|k j z|k j z|k|k a|id k|k j|k j|k j|k b e a|b e cb];
    [apply v_step_world, H| ..]; cbn [ys_step y_step].
  - ob H id. rewrite Hc. exists w. auto.
  - ob H id. apply set_sim; [exact H|]. apply (pos_of_ok s w l v id 0); auto. lia.
  - ob H id. apply set_sim; [exact H|]. rewrite <- (vrep_size _ _ _ Hrep). apply (pos_of_ok s w l v id); auto.
  - ob H id. eapply ref_sim; eauto.
  - vr H j p Hr. apply set_sim; assumption.
  - vr H k p Hr. eapply add_sim; eauto. intros. apply set_sim; assumption.
  - vr H k p Hr. eapply add_sim; eauto. intros. apply set_sim; assumption.
  - vr H j p Hr. eapply add_sim; eauto. intros p' q' Hr'. eexists. split; [reflexivity|].
    exact (yinv_set (fst s, <[j := q']> (snd s)) (fst w, <[j := p']> (snd w)) k p q (yinv_set s w j p' q' H Hr') Hr).
  - vr H j p Hr. eapply add_sim; eauto. intros p' q' Hr'. eexists. split; [reflexivity|].
    exact (yinv_set (fst s, <[j := q']> (snd s)) (fst w, <[j := p']> (snd w)) k p q (yinv_set s w j p' q' H Hr') Hr).
  - vr H j p Hr. eapply add_sim; eauto. intros. apply set_sim; assumption.
  - vr H j p Hr. eapply add_sim; eauto. intros. apply set_sim; assumption.
  - vr H k p Hr. pose proof (load_pos _ _ (proj1 H) _ _ Hr) as Hld.
    destruct (pos_get (fst s) q) as [a|]; cbn [orub].
    + rewrite (bind_ok _ _ _ _ _ (on_mem_same _ _ _ Hld)). exists w. auto.
    + apply bind_ub, on_mem_ub, Hld.
  - vr H k p Hr. apply write_sim; assumption.
  - ob H id. vr H k p Hr. apply push_sim; assumption.
  - vr H k p Hr. vr H j p' Hr'. apply (eq_sim s w p q p' q0 (fun b => b)); assumption.
  - vr H k p Hr. vr H j p' Hr'. apply (eq_sim s w p q p' q0 negb); assumption.
  - vr H k p Hr. vr H j p' Hr'. pose proof (p_diff_ok _ _ (proj1 H) _ _ _ _ Hr' Hr) as Hd.
    destruct (pos_diff q0 q) as [d|]; cbn [orub].
    + rewrite (bind_ok _ _ _ _ _ (on_mem_same _ _ _ Hd)). exists w. auto.
    + apply bind_ub, on_mem_ub, Hd.
  - vr H b p Hr. vr H e p' Hr'. apply find_sim; assumption.
  - vr H b p Hr. vr H e p' Hr'. apply each_sim; assumption.
Qed.

(** Whole histories have exactly the specified outcome. *)
Theorem y_history ops :
  match ys_run triv eqb ops (∅, ∅) with
  | Ok (rs, s) => exists w, mrun (y_step triv eqb) ops y_init = Ok (rs, w) /\ yinv s w
  | Abort => mrun (y_step triv eqb) ops y_init = Abort
  | UB => mrun (y_step triv eqb) ops y_init = UB
  | Diverge => mrun (y_step triv eqb) ops y_init = Diverge
  end.
Proof.
  generalize yinv_init. generalize (@y_init A), ((∅, ∅) : state).
  induction ops as [|o ops IH]; intros w s H; cbn [ys_run mrun]; [exists w; auto|].
  pose proof (y_step_sim o s w H) as Hs. unfold bind.
  destruct (ys_step triv eqb o s) as [[r s1]| | |]; cbn [ysim] in Hs; try (rewrite Hs; reflexivity).
  destruct Hs as (w1 & -> & H1). specialize (IH w1 s1 H1).
  destruct (ys_run triv eqb ops s1) as [[rs s2]| | |]; try (rewrite IH; reflexivity).
  destruct IH as (w2 & -> & H2). exists w2. auto.
Qed.
(** The specification answers every call. *)
Lemma lwith_total {X} (s : lworld A) id (k : lvec A -> res X) : (forall l, k l <> Diverge) -> lwith s id k <> Diverge.
Proof. unfold lwith. destruct (s !! id); [auto|discriminate]. Qed.
Lemma lnew_total {X} (s : lworld A) id (r : res X) : r <> Diverge -> lnew s id r <> Diverge.
Proof. unfold lnew. destruct (s !! id); [discriminate|auto]. Qed.
Lemma at_index_total {X} (l : list A) z (k : nat -> res X) : (forall i, k i <> Diverge) -> at_index l z k <> Diverge.
Proof. intros Hk. unfold at_index. destruct (py_index _ _); [auto|]. destruct (_ <=? _)%Z; discriminate. Qed.
Lemma with_var_total {X} (s : state) k (f : pos -> res X) : (forall q, f q <> Diverge) -> with_var s k f <> Diverge.
Proof. unfold with_var. destruct (snd s !! k); [auto|discriminate]. Qed.
Lemma orub_total {X Y} (x : option X) (f : X -> res Y) : (forall a, f a <> Diverge) -> orub x f <> Diverge.
Proof. destruct x; simpl; [auto|discriminate]. Qed.
Lemma lv_step_total o (s : lworld A) : lv_step triv o s <> Diverge.
Proof.
  destruct o; cbn [lv_step]; repeat first [apply lnew_total | apply lwith_total; intros ? | apply at_index_total; intros ?];
    repeat match goal with |- match ?x with _ => _ end <> _ => destruct x end; discriminate.
Qed.
Lemma ys_step_total o s : ys_step triv eqb o s <> Diverge.
Proof.
  destruct o; cbn [ys_step]; unfold setting;
    repeat first [apply lwith_total; intros ? | apply at_index_total; intros ? | apply with_var_total; intros ? | apply orub_total; intros ?];
    try discriminate.
  - pose proof (lv_step_total o (fst s)) as H. destruct (lv_step triv o (fst s)) as [[r v]| | |]; congruence.
  - destruct q; discriminate.
  - destruct (_ && _); discriminate.
Qed.

Theorem y_contents ops :
  match ys_run triv eqb ops (∅, ∅) with
  | Ok (rs, s) => exists w, mrun (y_step triv eqb) ops y_init = Ok (rs, w) /\
      forall id, contents (fst w) id = l_seq <$> fst s !! id
  | Abort => mrun (y_step triv eqb) ops y_init = Abort
  | UB => mrun (y_step triv eqb) ops y_init = UB
  | Diverge => False
  end.
Proof.
  assert (Hd : forall ops s, ys_run triv eqb ops s <> Diverge).
  { clear ops. induction ops as [|o ops IH]; intros s; cbn [ys_run]; [discriminate|].
    destruct (ys_step triv eqb o s) as [[r s1]| | |] eqn:E; try discriminate.
    - specialize (IH s1). destruct (ys_run triv eqb ops s1) as [[rs s2]| | |]; congruence.
    - exfalso. exact (ys_step_total o s E). }
  pose proof (y_history ops) as H. specialize (Hd ops (∅, ∅)).
  destruct (ys_run triv eqb ops (∅, ∅)) as [[rs s]| | |]; try congruence.
  destruct H as (w & Hrun & Hinv). exists w. split; [exact Hrun|].
  intros id. apply (winv_contents _ _ (proj1 Hinv)).
Qed.

(** States histories lead to, and single steps from them. *)
Lemma y_run_inv ops rs w : mrun (y_step triv eqb) ops y_init = Ok (rs, w) -> exists s, yinv s w.
Proof.
  intros Hrun. pose proof (y_history ops) as H. rewrite Hrun in H.
  destruct (ys_run triv eqb ops (∅, ∅)) as [[rs' s]| | |]; try discriminate.
  destruct H as (w' & Heq & Hi). injection Heq as <- <-. eauto.
Qed.
Lemma yinv_holds s w id v l : yinv s w -> holds (fst w) id v l -> fst s !! id = Some (LVec l (v_cap v)).
Proof.
  intros H [Hv Hc]. rewrite (winv_contents _ _ (proj1 H)) in Hc.
  destruct (fst s !! id) as [[l' c]|] eqn:E; [|discriminate]. injection Hc as <-.
  destruct (winv_obj _ _ _ _ (proj1 H) E) as (v' & Hv' & _ & Hcap). rewrite Hv in Hv'. injection Hv' as <-.
  rewrite Hcap. reflexivity.
Qed.

(** What a reference to an element is worth after another call. *)
Lemma y_watch ops rs w id v l k i b o s r s' :
  mrun (y_step triv eqb) ops y_init = Ok (rs, w) -> yinv s w -> holds (fst w) id v l -> nth_error l i = Some b ->
  lv_step triv o (fst s) = Ok (r, s') ->
  match pos_get s' (follow o (fst s) id i) with
  | Some x => exists w', mrun (y_step triv eqb) (ops ++ [YRef k id (Z.of_nat i); YVec o; YRead k]) y_init =
                   Ok (rs ++ [YOut RUnit; YOut r; YOut (RVal x)], w')
  | None => mrun (y_step triv eqb) (ops ++ [YRef k id (Z.of_nat i); YVec o; YRead k]) y_init = UB
  end.
Proof.
  intros Hrun H Hh Hb Ho. pose proof (yinv_holds _ _ _ _ _ H Hh) as Hl.
  assert (Hlt : i < length l) by (rewrite nth_error_lookup in Hb; eapply lookup_lt_Some; exact Hb).
  pose proof (mrun_app (y_step triv eqb) ops [YRef k id (Z.of_nat i); YVec o; YRead k] _ _ _ Hrun) as E.
  pose proof (y_step_sim (YRef k id (Z.of_nat i)) s w H) as G1.
  cbn [ys_step] in G1. unfold lwith in G1. rewrite Hl in G1. cbn [l_seq] in G1. unfold at_index, py_index in G1.
  destruct (Z.leb_spec 0 (Z.of_nat i)); [|lia]. destruct (Z.ltb_spec (Z.of_nat i) (Z.of_nat (length l))); [|lia].
  rewrite Nat2Z.id in G1. destruct G1 as (w1 & R1 & I1).
  pose proof (y_step_sim (YVec o) _ w1 I1) as G2. cbn [ys_step fst snd] in G2. rewrite Ho in G2.
  destruct G2 as (w2 & R2 & I2).
  pose proof (y_step_sim (YRead k) _ w2 I2) as G3. cbn [ys_step fst snd] in G3. unfold with_var in G3. cbn [snd fst] in G3.
  rewrite lookup_fmap, lookup_insert in G3. cbn [fmap option_fmap option_map follow_pos] in G3.
  destruct (pos_get s' (follow o (fst s) id i)) as [a|]; cbn [orub ysim] in *.
  - destruct G3 as (w3 & R3 & _). exists w3. rewrite E. cbn [mrun]. rewrite (bind_ok _ _ _ _ _ R1).
    unfold bind at 1. rewrite (bind_ok _ _ _ _ _ R2). unfold bind at 1. rewrite (bind_ok _ _ _ _ _ R3). reflexivity.
  - rewrite E. cbn [mrun]. rewrite (bind_ok _ _ _ _ _ R1).
    unfold bind at 1. rewrite (bind_ok _ _ _ _ _ R2). unfold bind at 1. rewrite (bind_ub _ _ _ G3). reflexivity.
Qed.

Theorem y_pop ops rs w id v l a k i b :
  mrun (y_step triv eqb) ops y_init = Ok (rs, w) -> holds (fst w) id v (l ++ [a]) -> nth_error l i = Some b ->
  if Nat.ltb (length l) (v_cap v / 3)
  then mrun (y_step triv eqb) (ops ++ [YRef k id (Z.of_nat i); YVec (OPop id); YRead k]) y_init = UB
  else exists w', mrun (y_step triv eqb) (ops ++ [YRef k id (Z.of_nat i); YVec (OPop id); YRead k]) y_init =
         Ok (rs ++ [YOut RUnit; YOut RUnit; YOut (RVal b)], w').
Proof.
  intros Hrun Hh Hb. destruct (y_run_inv _ _ _ Hrun) as [s H]. pose proof (yinv_holds _ _ _ _ _ H Hh) as Hl.
  assert (Hb' : nth_error (l ++ [a]) i = Some b).
  { rewrite nth_error_app1; [exact Hb|]. apply nth_error_Some. congruence. }
  assert (Ho : lv_step triv (OPop id) (fst s) = Ok (RUnit, <[id := LVec l (cap_pop (length l) (v_cap v))]> (fst s))).
  { cbn [lv_step]. unfold lwith. rewrite Hl. cbn [l_seq l_cap]. rewrite removelast_last, app_length. cbn [length].
    rewrite Nat.add_sub. destruct l; reflexivity. }
  pose proof (y_watch ops rs w id v _ k i b _ s _ _ Hrun H Hh Hb' Ho) as Hw.
  cbn [follow] in Hw. rewrite Nat.eqb_refl in Hw. unfold of_vec, pop_replaces in Hw. rewrite Hl in Hw.
  cbn [l_seq l_cap andb] in Hw. rewrite app_length in Hw. cbn [length] in Hw. rewrite Nat.add_sub in Hw.
  destruct (Nat.ltb (length l) (v_cap v / 3)); cbn [pos_get] in Hw; [exact Hw|].
  rewrite lookup_insert in Hw. cbn [l_seq] in Hw. rewrite Hb in Hw. exact Hw.
Qed.
Theorem y_push ops rs w id v l a k i b :
  mrun (y_step triv eqb) ops y_init = Ok (rs, w) -> holds (fst w) id v l -> nth_error l i = Some b ->
  if Nat.eqb (length l) (v_cap v)
  then mrun (y_step triv eqb) (ops ++ [YRef k id (Z.of_nat i); YVec (OPush id a); YRead k]) y_init = UB
  else exists w', mrun (y_step triv eqb) (ops ++ [YRef k id (Z.of_nat i); YVec (OPush id a); YRead k]) y_init =
         Ok (rs ++ [YOut RUnit; YOut RUnit; YOut (RVal b)], w').
Proof.
  intros Hrun Hh Hb. destruct (y_run_inv _ _ _ Hrun) as [s H]. pose proof (yinv_holds _ _ _ _ _ H Hh) as Hl.
  assert (Ho : lv_step triv (OPush id a) (fst s) = Ok (RUnit, <[id := LVec (l ++ [a]) (cap_push (length l) (v_cap v))]> (fst s))).
  { cbn [lv_step]. unfold lwith. rewrite Hl. reflexivity. }
  pose proof (y_watch ops rs w id v _ k i b _ s _ _ Hrun H Hh Hb Ho) as Hw.
  cbn [follow] in Hw. rewrite Nat.eqb_refl in Hw. unfold of_vec, push_replaces in Hw. rewrite Hl in Hw.
  cbn [l_seq l_cap andb] in Hw.
  destruct (Nat.eqb (length l) (v_cap v)); cbn [pos_get] in Hw; [exact Hw|].
  rewrite lookup_insert in Hw. cbn [l_seq] in Hw.
  rewrite nth_error_app1 in Hw by (apply nth_error_Some; congruence). rewrite Hb in Hw. exact Hw.
Qed.
(** Moving a vector hands its elements over where they are. *)
Theorem y_move ops rs w id dst v u l k i b :
  mrun (y_step triv eqb) ops y_init = Ok (rs, w) -> holds (fst w) id v l -> id <> dst -> nth_error l i = Some b ->
  (w_objs (fst w) !! dst = None -> exists w', mrun (y_step triv eqb) (ops ++ [YRef k id (Z.of_nat i); YVec (OMoveNew dst id); YRead k]) y_init =
         Ok (rs ++ [YOut RUnit; YOut RUnit; YOut (RVal b)], w')) /\
  (w_objs (fst w) !! dst = Some u -> exists w', mrun (y_step triv eqb) (ops ++ [YRef k id (Z.of_nat i); YVec (OMoveAssign dst id); YRead k]) y_init =
         Ok (rs ++ [YOut RUnit; YOut RUnit; YOut (RVal b)], w')).
Proof.
  intros Hrun Hh Hne Hb. destruct (y_run_inv _ _ _ Hrun) as [s H]. pose proof (yinv_holds _ _ _ _ _ H Hh) as Hl.
  pose proof (wi_rep _ _ (proj1 H) dst) as Hd. split; intros E; rewrite E in Hd.
  - assert (Ho : lv_step triv (OMoveNew dst id) (fst s) = Ok (RUnit, <[id := LVec [] 0]> (<[dst := LVec l (v_cap v)]> (fst s)))).
    { cbn [lv_step]. unfold lnew, lwith. destruct (fst s !! dst); [contradiction|]. rewrite Hl. reflexivity. }
    pose proof (y_watch ops rs w id v _ k i b _ s _ _ Hrun H Hh Hb Ho) as Hw.
    cbn [follow] in Hw. rewrite Nat.eqb_refl in Hw. cbn [pos_get] in Hw.
    rewrite lookup_insert_ne, lookup_insert in Hw by congruence. cbn [l_seq] in Hw. rewrite Hb in Hw. exact Hw.
  - assert (Ho : lv_step triv (OMoveAssign dst id) (fst s) = Ok (RUnit, <[id := LVec [] 0]> (<[dst := LVec l (v_cap v)]> (fst s)))).
    { cbn [lv_step]. unfold lwith. destruct (fst s !! dst); [|contradiction]. rewrite Hl.
      destruct (Nat.eqb_spec dst id); [congruence|reflexivity]. }
    pose proof (y_watch ops rs w id v _ k i b _ s _ _ Hrun H Hh Hb Ho) as Hw.
    cbn [follow] in Hw. rewrite Nat.eqb_refl in Hw. destruct (Nat.eqb_spec dst id); [congruence|]. cbn [pos_get] in Hw.
    rewrite lookup_insert_ne, lookup_insert in Hw by congruence. cbn [l_seq] in Hw. rewrite Hb in Hw. exact Hw.
Qed.
End Histories.
