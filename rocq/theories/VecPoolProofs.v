(** Vectors whose storage lies in the static pool. *)
From Verif Require Import Base VectorModel VectorSpec VectorProofs VecProg VectorWorld VectorExtra VecFailModel VecFailProofs.
From Verif Require Import ArithModel ArithProofs SMAModel SMASpec SMAProofs SMAInv SMAOps SMAAlloc SMAMerge SMAHist SMAMain SMARefute VecPoolModel VecPoolSpec.
Local Open Scope nat_scope.

(** *** A lower bound for the largest free block *)
Section Avail.
Context (MEM MAX : Z) (HP : params MEM MAX).
Local Open Scope Z_scope.
Definition avail (st : sma) (x : Z) : Prop := x <= 0 \/ exists a m, free_block MAX st a m /\ x <= m.

Lemma avail_init : avail (sma_init MEM MAX) MEM.
Proof.
  right. exists 0, MEM. split; [|lia]. eapply free_block_iff; [exact HP|apply init_inv, HP|].
  rewrite join_app. cbn. apply elem_of_app. right. left.
Qed.
Lemma avail_alloc st led n x : reach MEM MAX st led -> 0 < n -> n + 8 <= SMAModel.INT_MAX -> avail st x ->
  (allocate MEM MAX n st = Ok (None, st) /\ x < rounded n) \/
  exists a st', allocate MEM MAX n st = Ok (Some a, st') /\ led !! a = None /\ reach MEM MAX st' (<[a := n]> led) /\
    avail st' (x - rounded n).
Proof.
  intros HR H0 H8 Hx. destruct (reach_ok MEM MAX HP _ _ HR) as [G Hok].
  pose proof (rounded_bounds n) as Hrn.
  destruct (alloc_step MEM MAX HP _ _ _ n Hok H0 H8) as [[E A]|(a & d & R & G' & st' & E1 & E2 & Hd & Hfr & E & Hok' & _)].
  - left. split; [exact E|]. destruct Hx as [Hx|(a & m & Hb & Hx)]; [lia|].
    destruct Hok as (HI & _). apply (free_block_iff MEM MAX HP _ _ _ _ _ HI) in Hb. apply A in Hb. lia.
  - right. exists a, st'. split; [exact E|]. split; [exact Hfr|].
    split; [exact (reach_alloc MEM MAX _ _ _ _ _ HR H0 H8 E)|].
    destruct Hx as [Hx|(b & m & Hb & Hx)]; [left; lia|].
    destruct Hok as (HI & _), Hok' as (HI' & _). apply (free_block_iff MEM MAX HP _ _ _ _ _ HI) in Hb.
    rewrite E1 in Hb. apply elem_of_cons in Hb as [[= -> ->]|Hb].
    + destruct (Z.eqb_spec d (rounded n)); [left; lia|]. right. exists (a + rounded n), (d - rounded n).
      split; [|lia]. apply (free_block_iff MEM MAX HP _ _ _ _ _ HI'). rewrite E2. left.
    + right. exists b, m. split; [|lia]. apply (free_block_iff MEM MAX HP _ _ _ _ _ HI'). rewrite E2.
      apply elem_of_app. right. exact Hb.
Qed.
Lemma avail_merge st led x : reach MEM MAX st led -> avail st x ->
  exists st', memory_merge MEM MAX st = Ok (tt, st') /\ reach MEM MAX st' led /\ avail st' x.
Proof.
  intros HR Hx. destruct (merge_keeps MEM MAX HP _ _ HR) as (st' & E & _ & _ & _ & Hc & _).
  exists st'. split; [exact E|]. split; [eapply reach_merge; eassumption|].
  destruct Hx as [Hx|(b & m & Hb & Hx)]; [left; exact Hx|]. destruct (Hc _ _ Hb) as (a & m' & Hb' & H1 & H2).
  right. exists a, m'. split; [exact Hb'|lia].
Qed.
Lemma avail_dealloc st led a n x : reach MEM MAX st led -> led !! a = Some n -> avail st x ->
  exists st', deallocate MEM MAX (Some a) n st = Ok (true, st') /\ reach MEM MAX st' (delete a led) /\ avail st' x.
Proof.
  intros HR Ha Hx. destruct (reach_ok MEM MAX HP _ _ HR) as [G Hok].
  destruct (dealloc_step MEM MAX HP _ _ _ _ _ Hok Ha) as (G' & st' & E & Hok' & HG & _).
  exists st'. split; [exact E|]. split; [eapply reach_dealloc; eassumption|].
  destruct Hx as [Hx|(b & m & Hb & Hx)]; [left; exact Hx|]. right. exists b, m. split; [|exact Hx].
  destruct Hok as (HI & _), Hok' as (HI' & _). apply (free_block_iff MEM MAX HP _ _ _ _ _ HI) in Hb.
  apply (free_block_iff MEM MAX HP _ _ _ _ _ HI'). rewrite HG. right. exact Hb.
Qed.
Lemma avail_write st led a v x : reach MEM MAX st led -> owned led a -> a mod 8 = 0 -> avail st x ->
  exists st', user_write MEM a v st = Ok (tt, st') /\ reach MEM MAX st' led /\ avail st' x.
Proof.
  intros HR Ho H8 Hx. destruct (reach_ok MEM MAX HP _ _ HR) as [G Hok].
  destruct (write_step MEM MAX HP _ _ _ _ v Hok Ho H8) as (st' & E & Hok').
  exists st'. split; [exact E|]. split; [eapply reach_write; eassumption|].
  destruct Hx as [Hx|(b & m & Hb & Hx)]; [left; exact Hx|]. right. exists b, m. split; [|exact Hx].
  destruct Hok as (HI & _), Hok' as (HI' & _). apply (free_block_iff MEM MAX HP _ _ _ _ _ HI) in Hb.
  apply (free_block_iff MEM MAX HP _ _ _ _ _ HI'). exact Hb.
Qed.
End Avail.

Section VecPool.
Context {A : Type} (triv : bool) (MEM MAX sz : Z) (port : bool) (bytes : pworld A -> list (Z * Z)).
Context (HP : params MEM MAX) (Hsz : (0 < sz)%Z).
Notation mem := (mem A).
Notation world := (world A).
Notation sworld := (gmap nat (lvec A)).
Notation pworld := (pworld A).
Notation P := (M pworld).
Notation lift := VectorModel.lift.

(** The sizes of the blocks of storage. *)
Definition lens (m : mem) : gmap nat nat := length <$> m_blocks m.
Definition need (n : nat) : Z := rounded (Z.of_nat n * sz).
Definition held (L : gmap nat nat) : Z := map_fold (fun _ n s => (need n + s)%Z) 0%Z L.
Definition fit (n : nat) : Prop := (Z.of_nat n * sz + 8 <= SMAModel.INT_MAX)%Z.

(** Every block of storage is one live allocation of the pool, and conversely. *)
Record inv (x : Z) (s : pworld) (led : gmap Z Z) : Prop := {
  i_reach : reach MEM MAX (pw_pool s) led;
  i_avail : avail MAX (pw_pool s) x;
  i_addr : forall b n, lens (w_mem (pw_w s)) !! b = Some n ->
    exists a, pw_addr s !! b = Some a /\ led !! a = Some (Z.of_nat n * sz)%Z;
  i_inj : forall b c a, pw_addr s !! b = Some a -> pw_addr s !! c = Some a -> b = c;
  i_dom : forall b, is_Some (pw_addr s !! b) -> is_Some (lens (w_mem (pw_w s)) !! b);
  i_live : live_bytes led = held (lens (w_mem (pw_w s)));
  i_next : forall b, is_Some (lens (w_mem (pw_w s)) !! b) -> b < m_next (w_mem (pw_w s))
}.
Definition INV (x : Z) (s : pworld) : Prop := exists led, inv x s led.

Lemma need_0 : need 0 = 0%Z.
Proof. reflexivity. Qed.
Lemma held_insert L b n : L !! b = None -> held (<[b := n]> L) = (need n + held L)%Z.
Proof. intros H. unfold held. rewrite map_fold_insert_L; [reflexivity|intros; lia|exact H]. Qed.
Lemma held_delete L b n : L !! b = Some n -> held L = (need n + held (delete b L))%Z.
Proof. intros H. rewrite <- (insert_delete L b n H) at 1. apply held_insert, lookup_delete. Qed.
Lemma live_insert led a n : led !! a = None -> live_bytes (<[a := n]> led) = (rounded n + live_bytes led)%Z.
Proof. intros H. unfold live_bytes. rewrite map_fold_insert_L; [reflexivity|intros; lia|exact H]. Qed.
Lemma live_delete led a n : led !! a = Some n -> live_bytes led = (rounded n + live_bytes (delete a led))%Z.
Proof. intros H. rewrite <- (insert_delete led a n H) at 1. apply live_insert, lookup_delete. Qed.

Lemma INV_init : INV MEM (pw_init MEM MAX).
Proof.
  assert (Hl : lens (w_mem (A := A) world_init) = ∅) by apply fmap_empty.
  exists ∅. unfold pw_init. split; cbn [pw_w pw_pool pw_addr]; rewrite ?Hl.
  - apply reach_init.
  - apply avail_init, HP.
  - intros b n. rewrite lookup_empty. discriminate.
  - intros b c a. rewrite lookup_empty. discriminate.
  - intros b. rewrite lookup_empty. intros [? [=]].
  - reflexivity.
  - intros b. rewrite lookup_empty. intros [? [=]].
Qed.

(** *** The program's writes into its storage *)
Lemma own_word_owned s led x y : inv x s led -> own_word sz s y = true -> owned led y /\ (y mod 8 = 0)%Z.
Proof.
  intros HI H. unfold own_word in H. apply andb_true_iff in H as [H8 H]. apply Z.eqb_eq in H8. split; [|exact H8].
  apply existsb_exists in H as ([b cs] & Hin & H). cbn [fst snd] in H.
  apply elem_of_list_In, elem_of_map_to_list in Hin.
  destruct (i_addr _ _ _ HI b (length cs)) as (a & Ha & Hl). { unfold lens. rewrite lookup_fmap, Hin. reflexivity. }
  rewrite Ha in H. apply andb_true_iff in H as [H1 H2]. apply Z.leb_le in H1. apply Z.ltb_lt in H2.
  exists a, (Z.of_nat (length cs) * sz)%Z. split; [exact Hl|]. unfold within.
  pose proof (rounded_bounds (Z.of_nat (length cs) * sz)). lia.
Qed.
Lemma writes_ok ws : forall x s led, inv x s led -> exists s', writes MEM sz ws s = Ok (tt, s') /\
  pw_w s' = pw_w s /\ pw_addr s' = pw_addr s /\ inv x s' led.
Proof.
  induction ws as [|[y v] ws IH]; intros x s led HI; cbn [writes]; [exists s; auto|].
  destruct (own_word sz s y) eqn:Ho.
  - destruct (own_word_owned _ _ _ _ HI Ho) as [Ho' H8].
    destruct (avail_write MEM MAX HP _ _ _ v _ (i_reach _ _ _ HI) Ho' H8 (i_avail _ _ _ HI)) as (st' & E & HR & Hav).
    assert (HI' : inv x (PW (pw_w s) st' (pw_addr s)) led).
    { destruct HI. split; cbn [pw_w pw_pool pw_addr]; assumption. }
    destruct (IH _ _ _ HI') as (s2 & E2 & Hw & Ha & HI2). exists s2. split; [|auto].
    erewrite bind_ok; [exact E2|]. cbn beta. rewrite Ho. unfold onpool. rewrite E. reflexivity.
  - destruct (IH _ _ _ HI) as (s2 & E2 & Hw & Ha & HI2). exists s2. split; [|auto].
    erewrite bind_ok; [exact E2|]. cbn beta. rewrite Ho. reflexivity.
Qed.
Lemma scribble_ok x s led : inv x s led -> exists s', scribble MEM sz bytes s = Ok (tt, s') /\
  pw_w s' = pw_w s /\ pw_addr s' = pw_addr s /\ inv x s' led.
Proof. apply writes_ok. Qed.

(** *** Agreement with the vectors over an allocator that may refuse *)
(** [sw st x s g f]: from [s], [g] does what [f] does on the vectors, or (unless
    [st]) crashes for want of memory; nothing is said if [f] is undefined. *)
Definition sw {X} (st : bool) (x : Z) (s : pworld) (g : P X) (f : M world X) : Prop :=
  (st = false /\ g s = Abort) \/
  match f (pw_w s) with
  | Ok (r, w') => exists s', g s = Ok (r, s') /\ pw_w s' = w' /\ INV x s'
  | Abort => g s = Abort
  | UB => True
  | Diverge => g s = Diverge
  end.
(** [g] asks the allocator for [n] elements at most once, [f] is told by the
    Boolean whether that was refused; with enough left in the pool it is not. *)
Definition swx {X} (x : Z) (n : nat) (s : pworld) (g : P X) (F : bool -> M world X) : Prop :=
  exists d st x', sw st x' s g (F d) /\ ((need n <= x)%Z -> d = false /\ st = true /\ x' = (x - need n)%Z).

Lemma sw_ext {X} st x s (g : P X) f f' : f (pw_w s) = f' (pw_w s) -> sw st x s g f -> sw st x s g f'.
Proof. unfold sw. intros ->. auto. Qed.
Lemma swx_ext {X} x n s (g : P X) F F' : (forall d, F d (pw_w s) = F' d (pw_w s)) -> swx x n s g F -> swx x n s g F'.
Proof. intros E (d & st & x' & H & H2). exists d, st, x'. split; [|exact H2]. eapply sw_ext; [apply E|exact H]. Qed.
Lemma sw_ret {X} st x s (r : X) : INV x s -> sw st x s (ret r) (ret r).
Proof. right. cbn. exists s. auto. Qed.
Lemma sw_abort {X} st x s : @sw X st x s abort abort.
Proof. right. reflexivity. Qed.
Lemma sw_ub {X} st x s : @sw X st x s ub ub.
Proof. right. exact I. Qed.
Lemma sw_bind {X Y} x s (g : P X) f (k : X -> P Y) K : sw true x s g f ->
  (forall r s', INV x s' -> f (pw_w s) = Ok (r, pw_w s') -> sw true x s' (k r) (K r)) ->
  sw true x s (bind g k) (bind f K).
Proof.
  intros [[[=] _]|H] Hk. right. unfold bind. destruct (f (pw_w s)) as [[r w']| | |] eqn:E.
  - destruct H as (s' & -> & <- & HI). destruct (Hk r s' HI eq_refl) as [[[=] _]|H]. exact H.
  - rewrite H. reflexivity.
  - exact I.
  - rewrite H. reflexivity.
Qed.
Lemma swx_sw {X} x s (g : P X) f : sw true x s g f -> swx x 0 s g (fun _ => f).
Proof. intros H. exists false, true, x. split; [exact H|]. rewrite need_0. intros _. split_and!; auto. lia. Qed.
Lemma swx_le {X} x n s (g : P X) F : INV x s -> sw true x s g (F false) -> n = 0 -> swx x n s g F.
Proof. intros _ H ->. exists false, true, x. split; [exact H|]. rewrite need_0. intros _. split_and!; auto. lia. Qed.
Lemma swx_bind_l {X Y} x n s (g : P X) f (k : X -> P Y) K : sw true x s g f ->
  (forall r s', INV x s' -> f (pw_w s) = Ok (r, pw_w s') -> swx x n s' (k r) (fun d => K d r)) ->
  swx x n s (bind g k) (fun d => bind f (K d)).
Proof.
  intros [[[=] _]|H] Hk. unfold swx, sw, bind. destruct (f (pw_w s)) as [[r w']| | |] eqn:E.
  - destruct H as (s' & E' & <- & HI). rewrite E'. destruct (Hk r s' HI eq_refl) as (d & st & x' & Hs & H2).
    exists d, st, x'. split; [exact Hs|exact H2].
  - exists false, true, (x - need n)%Z. split; [right; rewrite H; reflexivity|auto].
  - exists false, true, (x - need n)%Z. split; [right; exact I|auto].
  - exists false, true, (x - need n)%Z. split; [right; rewrite H; reflexivity|auto].
Qed.
Lemma swx_bind_r {X Y} x n s (g : P X) F (k : X -> P Y) K : swx x n s g F ->
  (forall d x' r s', INV x' s' -> F d (pw_w s) = Ok (r, pw_w s') -> sw true x' s' (k r) (K d r)) ->
  swx x n s (bind g k) (fun d => bind (F d) (K d)).
Proof.
  intros (d & st & x' & Hs & H2) Hk. exists d, st, x'. split; [|exact H2]. unfold sw, bind.
  destruct Hs as [[-> E]|H]; [left; rewrite E; auto|]. right. destruct (F d (pw_w s)) as [[r w']| | |] eqn:E.
  - destruct H as (s' & -> & <- & HI). destruct (Hk d x' r s' HI E) as [[[=] _]|H]. exact H.
  - rewrite H. reflexivity.
  - exact I.
  - rewrite H. reflexivity.
Qed.

Lemma lift_bind {X Y} (f : M mem X) (K : X -> M mem Y) (w : world) :
  lift (bind f K) w = bind (lift f) (fun r => lift (K r)) w.
Proof. unfold lift, bind. destruct (f (w_mem w)) as [[r m]| | |]; reflexivity. Qed.
Lemma sw_lbind {X Y} x s (g : P X) (f : M mem X) (k : X -> P Y) K : sw true x s g (lift f) ->
  (forall r s', INV x s' -> lift f (pw_w s) = Ok (r, pw_w s') -> sw true x s' (k r) (lift (K r))) ->
  sw true x s (bind g k) (lift (bind f K)).
Proof. intros H Hk. eapply sw_ext; [symmetry; apply lift_bind|]. apply sw_bind; assumption. Qed.
Lemma swx_lbind_l {X Y} x n s (g : P X) (f : M mem X) (k : X -> P Y) K : sw true x s g (lift f) ->
  (forall r s', INV x s' -> lift f (pw_w s) = Ok (r, pw_w s') -> swx x n s' (k r) (fun d => lift (K d r))) ->
  swx x n s (bind g k) (fun d => lift (bind f (K d))).
Proof. intros H Hk. eapply (swx_ext _ _ _ _ (fun d => bind (lift f) (fun r => lift (K d r)))); [intros d; symmetry; apply lift_bind|]. apply (swx_bind_l _ _ _ _ _ _ (fun d r => lift (K d r))); assumption. Qed.
Lemma swx_lbind_r {X Y} x n s (g : P X) (F : bool -> M mem X) (k : X -> P Y) K : swx x n s g (fun d => lift (F d)) ->
  (forall d x' r s', INV x' s' -> lift (F d) (pw_w s) = Ok (r, pw_w s') -> sw true x' s' (k r) (lift (K d r))) ->
  swx x n s (bind g k) (fun d => lift (bind (F d) (K d))).
Proof. intros H Hk. eapply (swx_ext _ _ _ _ (fun d => bind (lift (F d)) (fun r => lift (K d r)))); [intros d; symmetry; apply lift_bind|]. apply (swx_bind_r _ _ _ _ (fun d => lift (F d)) _ (fun d r => lift (K d r))); assumption. Qed.
Lemma sw_lret {X} st x s (r : X) : INV x s -> sw st x s (ret r) (lift (ret r)).
Proof. intros HI. eapply sw_ext; [|apply sw_ret, HI]. destruct (pw_w s). reflexivity. Qed.

(** *** Calls that leave the blocks of storage as they are *)
Definition quiet {X} (f : M mem X) : Prop := forall m r m', f m = Ok (r, m') -> m_next m' = m_next m /\ lens m' = lens m.
Definition wquiet {X} (f : M world X) : Prop := forall w r w', f w = Ok (r, w') ->
  m_next (w_mem w') = m_next (w_mem w) /\ lens (w_mem w') = lens (w_mem w).
Lemma wquiet_lift {X} (f : M mem X) : quiet f -> wquiet (lift f).
Proof.
  intros Hf w r w'. unfold lift. destruct (f (w_mem w)) as [[y m]| | |] eqn:E; try discriminate.
  intros [= <- <-]. cbn. eapply Hf, E.
Qed.
Lemma INV_quiet x s w' : INV x s -> m_next (w_mem w') = m_next (w_mem (pw_w s)) -> lens (w_mem w') = lens (w_mem (pw_w s)) ->
  INV x (PW w' (pw_pool s) (pw_addr s)).
Proof.
  intros [led HI] Hn Hl. exists led. destruct HI. split; cbn [pw_w pw_pool pw_addr]; rewrite ?Hl, ?Hn; assumption.
Qed.
Lemma sw_quiet {X} st x s (f : M world X) : wquiet f -> INV x s -> sw st x s (onworld f) f.
Proof.
  intros Hf HI. right. unfold onworld. destruct (f (pw_w s)) as [[r w']| | |] eqn:E; try reflexivity.
  destruct (Hf _ _ _ E) as [Hn Hl]. eexists. split; [reflexivity|]. split; [reflexivity|]. apply INV_quiet; assumption.
Qed.
Lemma sw_onmem {X} st x s (f : M mem X) : quiet f -> INV x s -> sw st x s (onmem f) (lift f).
Proof. intros Hf. apply sw_quiet, wquiet_lift, Hf. Qed.

Lemma lens_set m b cs i c : m_blocks m !! b = Some cs ->
  length <$> <[b := <[i := c]> cs]> (m_blocks m) = lens m.
Proof.
  intros H. unfold lens. rewrite fmap_insert, insert_length. apply insert_id. rewrite lookup_fmap, H. reflexivity.
Qed.
Lemma q_ret {X} (r : X) : quiet (ret r).
Proof. intros m y m' [= <- <-]. auto. Qed.
Lemma q_abort {X} : quiet (@abort mem X).
Proof. intros m y m' [=]. Qed.
Lemma q_ub {X} : quiet (@ub mem X).
Proof. intros m y m' [=]. Qed.
Lemma q_diverge {X} : quiet (@diverge mem X).
Proof. intros m y m' [=]. Qed.
Lemma q_bind {X Y} (f : M mem X) (k : X -> M mem Y) : quiet f -> (forall r, quiet (k r)) -> quiet (bind f k).
Proof.
  intros Hf Hk m y m' H. apply bind_inv in H as (r & m1 & H1 & H2). apply Hf in H1 as [A1 A2]. apply Hk in H2 as [B1 B2].
  split; congruence.
Qed.
Lemma q_dassert b : quiet (@dassert mem b).
Proof. destruct b; [apply q_ret|apply q_abort]. Qed.
Lemma q_range k : forall i (f : nat -> M mem unit), (forall i, quiet (f i)) -> quiet (for_range i k f).
Proof. induction k as [|k IH]; intros i f Hf; cbn; [apply q_ret|]. apply q_bind; [apply Hf|intros _; apply IH, Hf]. Qed.
Lemma q_load b i : quiet (load (A := A) b i).
Proof.
  intros m a m'. unfold load. destruct b as [b|]; [|discriminate].
  destruct (m_blocks m !! b) as [cs|]; [|discriminate]. destruct (cs !! i) as [[x|]|]; try discriminate.
  intros [= _ <-]. auto.
Qed.
Lemma q_store b i a : quiet (store (A := A) b i a).
Proof.
  intros m x m'. unfold store. destruct b as [b|]; [|discriminate].
  destruct (m_blocks m !! b) as [cs|] eqn:E; [|discriminate]. destruct (cs !! i) as [[y|]|]; try discriminate.
  intros [= _ <-]. split; [reflexivity|apply lens_set, E].
Qed.
Lemma q_construct b i a : quiet (construct (A := A) b i a).
Proof.
  intros m x m'. unfold construct. destruct b as [b|]; [|destruct (i =? 0); discriminate].
  destruct (m_blocks m !! b) as [cs|] eqn:E; [|discriminate]. destruct (cs !! i) as [y|]; try discriminate.
  intros [= _ <-]. split; [reflexivity|apply lens_set, E].
Qed.
Lemma q_destroy b i : quiet (destroy (A := A) triv b i).
Proof.
  intros m x m'. unfold destroy. destruct b as [b|]; [|destruct (i =? 0); discriminate].
  destruct (m_blocks m !! b) as [cs|] eqn:E; [|discriminate]. destruct (cs !! i) as [[y|]|]; try discriminate.
  - intros [= _ <-]. split; [reflexivity|apply lens_set, E].
  - destruct triv; [|discriminate]. intros [= _ <-]. auto.
Qed.
Lemma q_arg (x : arg A) : quiet (read_arg x).
Proof. destruct x; [apply q_ret|apply q_load]. Qed.
Ltac qt := repeat first
  [ apply q_ret | apply q_load | apply q_store | apply q_construct | apply q_destroy
  | apply q_arg | apply q_dassert | apply q_ub | apply q_diverge
  | match goal with |- quiet (bind _ _) => apply q_bind; [|intros ?] end
  | match goal with |- quiet (for_range _ _ _) => apply q_range; intros ? end
  | match goal with |- quiet (if ?b then _ else _) => destruct b end ].
Lemma q_index v i : quiet (v_index (A := A) v i).
Proof. unfold v_index. qt. Qed.
Lemma q_iter v : quiet (v_iter (A := A) v).
Proof.
  unfold v_iter. generalize (S (v_size v)). intros n. generalize 0.
  induction n as [|n IH]; intros k; cbn [v_iter_from]; qt. apply IH.
Qed.
Lemma q_load_z b i : quiet (load_z (A := A) b i).
Proof. unfold load_z. qt. Qed.
Lemma q_store_z b i a : quiet (store_z (A := A) b i a).
Proof. unfold store_z. qt. Qed.

Lemma wq_ret {X} (r : X) : wquiet (ret r).
Proof. intros m y m' [= <- <-]. auto. Qed.
Lemma wq_bind {X Y} (f : M world X) (k : X -> M world Y) : wquiet f -> (forall r, wquiet (k r)) -> wquiet (bind f k).
Proof.
  intros Hf Hk m y m' H. apply bind_inv in H as (r & m1 & H1 & H2). apply Hf in H1 as [A1 A2]. apply Hk in H2 as [B1 B2].
  split; congruence.
Qed.
Lemma wq_obj id : wquiet (@obj A id).
Proof. intros w v w'. unfold obj. destruct (w_objs w !! id); [|discriminate]. intros [= _ <-]. auto. Qed.
Lemma wq_absent id : wquiet (@absent A id).
Proof. intros w v w'. unfold absent. destruct (w_objs w !! id); [discriminate|]. intros [= _ <-]. auto. Qed.
Lemma wq_set id v : wquiet (@set_obj A id v).
Proof. intros w u w' [= _ <-]. auto. Qed.
Lemma wq_del id : wquiet (@del_obj A id).
Proof. intros w u w' [= _ <-]. auto. Qed.
Ltac wq := repeat first
  [ apply wq_ret | apply wq_obj | apply wq_absent | apply wq_set | apply wq_del
  | match goal with |- wquiet (bind _ _) => apply wq_bind; [|intros ?] end
  | apply wquiet_lift; unfold v_get, v_set, v_back, v_front; qt; first [apply q_index|apply q_iter|apply q_load_z|apply q_store_z] ].

(** *** The allocator's calls *)
Lemma bytes_fit n : fit n -> spec_bytes (Z.of_nat n) sz = (Z.of_nat n * sz)%Z.
Proof.
  intros H. apply spec_bytes_ok; [lia|lia|]. unfold fit in H.
  change ArithModel.INT_MAX with SMAModel.INT_MAX. lia.
Qed.
Lemma pool_alloc_ok st led n x : reach MEM MAX st led -> avail MAX st x -> 0 < n -> fit n ->
  (if port then port_allocate MEM MAX else allocate MEM MAX) (spec_bytes (Z.of_nat n) sz) st = Abort /\ (x < need n)%Z \/
  (exists st', (if port then port_allocate MEM MAX else allocate MEM MAX) (spec_bytes (Z.of_nat n) sz) st = Ok (None, st') /\
     reach MEM MAX st' led /\ (x < need n)%Z) \/
  exists a st', (if port then port_allocate MEM MAX else allocate MEM MAX) (spec_bytes (Z.of_nat n) sz) st = Ok (Some a, st') /\
    led !! a = None /\ reach MEM MAX st' (<[a := (Z.of_nat n * sz)%Z]> led) /\ avail MAX st' (x - need n).
Proof.
  intros HR Hav Hn Hf. rewrite (bytes_fit _ Hf). assert (H0 : (0 < Z.of_nat n * sz)%Z) by nia.
  destruct (avail_alloc MEM MAX HP _ _ _ _ HR H0 Hf Hav) as [[E Hlt]|(a & st' & E & Hfr & HR' & Hav')].
  - destruct port; [|right; left; exists st; auto].
    destruct (avail_merge MEM MAX HP _ _ _ HR Hav) as (st1 & E1 & HR1 & Hav1).
    assert (Ep : port_allocate MEM MAX (Z.of_nat n * sz) st =
      (p <- allocate MEM MAX (Z.of_nat n * sz) ;; match p with None => abort | Some _ => ret p end) st1).
    { unfold port_allocate. etransitivity; [eapply bind_ok, E|]. cbn beta iota. etransitivity; [eapply bind_ok, E1|]. reflexivity. }
    rewrite Ep.
    destruct (avail_alloc MEM MAX HP _ _ _ _ HR1 H0 Hf Hav1) as [[E2 Hlt2]|(a & st' & E2 & Hfr & HR' & Hav')].
    + left. split; [|exact Hlt]. erewrite bind_ok by exact E2. reflexivity.
    + right. right. exists a, st'. split; [erewrite bind_ok by exact E2; reflexivity|auto].
  - right. right. exists a, st'. split; [|auto]. destruct port; [|exact E].
    unfold port_allocate. erewrite bind_ok by exact E. reflexivity.
Qed.

Lemma p_alloc_ok x s n : INV x s -> 0 < n -> fit n ->
  swx x n s (p_alloc MEM MAX sz port bytes n) (fun d => lift (f_alloc (fun _ => d) n)).
Proof.
  intros [led HI0] Hn Hf. destruct (scribble_ok _ _ _ HI0) as (s1 & Es & Hw & Ha & HI).
  assert (Hbind : forall k, (scribble MEM sz bytes ;;; k) s = k s1 :> res (option nat * pworld)) by (intros k; erewrite bind_ok by exact Es; reflexivity).
  unfold swx, sw, p_alloc. rewrite Hbind, <- Hw. clear Hbind Es Hw Ha HI0 s.
  destruct (pool_alloc_ok _ _ _ _ (i_reach _ _ _ HI) (i_avail _ _ _ HI) Hn Hf) as [[E Hlt]|[(st' & E & HR & Hlt)|(a & st' & E & Hfr & HR & Hav)]].
  - exists false, false, 0%Z. split; [|lia]. left. split; [reflexivity|]. apply bind_abort. unfold onpool. rewrite E. reflexivity.
  - exists true, true, 0%Z. split; [|lia]. right. unfold lift, f_alloc. eexists. split; [erewrite bind_ok by (unfold onpool; rewrite E; reflexivity); reflexivity|]. split; [reflexivity|].
    exists led. destruct HI. split; cbn [pw_w pw_pool pw_addr w_mem m_next]; try assumption; [left; lia|].
      intros b Hb. specialize (i_next0 b Hb). lia.
  - exists false, true, (x - need n)%Z. split; [|auto]. right. unfold lift, f_alloc. eexists. split; [erewrite bind_ok by (unfold onpool; rewrite E; reflexivity); reflexivity|]. split; [reflexivity|].
    assert (Hnew : lens (w_mem (pw_w s1)) !! m_next (w_mem (pw_w s1)) = None).
      { apply eq_None_not_Some. intros H. apply (i_next _ _ _ HI) in H. lia. }
      assert (Hfresh : pw_addr s1 !! m_next (w_mem (pw_w s1)) = None).
      { apply eq_None_not_Some. intros H. apply (i_dom _ _ _ HI) in H. rewrite Hnew in H. destruct H as [? [=]]. }
      assert (Hlens : lens (Mem (<[m_next (w_mem (pw_w s1)) := replicate n None]> (m_blocks (w_mem (pw_w s1)))) (S (m_next (w_mem (pw_w s1)))) (m_leaked (w_mem (pw_w s1))) (m_ctor (w_mem (pw_w s1)))) = <[m_next (w_mem (pw_w s1)) := n]> (lens (w_mem (pw_w s1)))).
      { unfold lens. cbn [m_blocks]. rewrite fmap_insert, replicate_length. reflexivity. }
      exists (<[a := (Z.of_nat n * sz)%Z]> led). split; cbn [pw_w pw_pool pw_addr w_mem m_next]; rewrite ?Hlens.
      * exact HR.
      * exact Hav.
      * intros b k Hb. destruct (decide (b = m_next (w_mem (pw_w s1)))) as [->|Hne].
        -- rewrite lookup_insert in Hb. injection Hb as <-. exists a. rewrite !lookup_insert. auto.
        -- rewrite lookup_insert_ne in Hb by congruence. destruct (i_addr _ _ _ HI _ _ Hb) as (a' & H1 & H2).
           exists a'. rewrite lookup_insert_ne by congruence. split; [exact H1|].
           rewrite lookup_insert_ne; [exact H2|]. congruence.
      * assert (Hother : forall b a', pw_addr s1 !! b = Some a' -> a' <> a).
        { intros b a' Hb ->. destruct (i_dom _ _ _ HI b (mk_is_Some _ _ Hb)) as [k Hk].
          destruct (i_addr _ _ _ HI _ _ Hk) as (a'' & H1 & H2). congruence. }
        intros b c a' Hb Hc. destruct (decide (b = m_next (w_mem (pw_w s1)))) as [->|Hb'], (decide (c = m_next (w_mem (pw_w s1)))) as [->|Hc']; [reflexivity| | |].
        -- rewrite lookup_insert in Hb. injection Hb as <-. rewrite lookup_insert_ne in Hc by congruence. destruct (Hother _ _ Hc eq_refl).
        -- rewrite lookup_insert in Hc. injection Hc as <-. rewrite lookup_insert_ne in Hb by congruence. destruct (Hother _ _ Hb eq_refl).
        -- rewrite lookup_insert_ne in Hb, Hc by congruence. exact (i_inj _ _ _ HI _ _ _ Hb Hc).
      * intros b Hb. destruct (decide (b = m_next (w_mem (pw_w s1)))) as [->|Hne]; [rewrite lookup_insert; eauto|].
        rewrite lookup_insert_ne in Hb by congruence. rewrite lookup_insert_ne by congruence. exact (i_dom _ _ _ HI _ Hb).
      * rewrite live_insert, held_insert by assumption. rewrite (i_live _ _ _ HI). reflexivity.
      * intros b Hb. destruct (decide (b = m_next (w_mem (pw_w s1)))) as [->|Hne]; [lia|].
        rewrite lookup_insert_ne in Hb by congruence. pose proof (i_next _ _ _ HI _ Hb). lia.
Qed.

Lemma p_dealloc_ok x s b n : INV x s -> sw true x s (p_dealloc MEM MAX sz port bytes b n) (lift (dealloc b n)).
Proof.
  intros [led HI0]. destruct (scribble_ok _ _ _ HI0) as (s1 & Es & Hw & Ha & HI).
  assert (Hbind : forall k, (scribble MEM sz bytes ;;; k) s = k s1 :> res (unit * pworld)) by (intros k; erewrite bind_ok by exact Es; reflexivity).
  unfold sw, p_dealloc. rewrite Hbind, <- Hw. clear Hbind Es Hw Ha HI0 s. right.
  unfold lift at 1, dealloc at 1. destruct (m_blocks (w_mem (pw_w s1)) !! b) as [cs|] eqn:Eb; [|exact I].
  destruct (Nat.eqb_spec (length cs) n) as [<-|]; [|exact I].
  assert (El : lens (w_mem (pw_w s1)) !! b = Some (length cs)) by (unfold lens; rewrite lookup_fmap, Eb; reflexivity).
  destruct (i_addr _ _ _ HI _ _ El) as (a & Ea & Hl).
  assert (Hfit : fit (length cs)).
  { destruct (reach_ok MEM MAX HP _ _ (i_reach _ _ _ HI)) as [G (_ & _ & Hn)]. exact (proj2 (Hn _ _ Hl)). }
  destruct (avail_dealloc MEM MAX HP _ _ _ _ _ (i_reach _ _ _ HI) Hl (i_avail _ _ _ HI)) as (st' & E & HR & Hav).
  eexists. split; [|split; [instantiate (1 := PW (World _ _) _ _); reflexivity|]].
  - erewrite bind_ok.
    2:{ cbv beta zeta. rewrite (bytes_fit _ Hfit), Ea. instantiate (1 := PW (pw_w s1) st' (pw_addr s1)). instantiate (1 := tt).
        destruct port; [|erewrite bind_ok by (unfold onpool; rewrite E; reflexivity); reflexivity].
        unfold onpool, port_deallocate. erewrite bind_ok by exact E. reflexivity. }
    erewrite bind_ok.
    2:{ unfold onmem, onworld, lift, dealloc. cbn [pw_w]. rewrite Eb, Nat.eqb_refl. reflexivity. }
    reflexivity.
  - cbn [pw_w pw_pool pw_addr]. exists (delete a led).
    assert (Hlens : lens (Mem (delete b (m_blocks (w_mem (pw_w s1)))) (m_next (w_mem (pw_w s1))) (m_leaked (w_mem (pw_w s1)) + live_count cs) (m_ctor (w_mem (pw_w s1)))) = delete b (lens (w_mem (pw_w s1)))).
    { unfold lens. cbn [m_blocks]. rewrite fmap_delete. reflexivity. }
    split; cbn [pw_w pw_pool pw_addr w_mem m_next]; rewrite ?Hlens.
    + exact HR.
    + exact Hav.
    + intros c k Hc. apply lookup_delete_Some in Hc as [Hne Hc]. destruct (i_addr _ _ _ HI _ _ Hc) as (a' & H1 & H2).
      exists a'. rewrite lookup_delete_ne by congruence. split; [exact H1|]. rewrite lookup_delete_ne; [exact H2|].
      intros <-. apply Hne. exact (i_inj _ _ _ HI _ _ _ Ea H1).
    + intros c c' a' H1 H2. apply lookup_delete_Some in H1 as [_ H1], H2 as [_ H2]. exact (i_inj _ _ _ HI _ _ _ H1 H2).
    + intros c [a' H1]. apply lookup_delete_Some in H1 as [Hne H1]. rewrite lookup_delete_ne by congruence. eapply (i_dom _ _ _ HI). eauto.
    + pose proof (live_delete _ _ _ Hl) as L1. pose proof (held_delete _ _ _ El) as L2. pose proof (i_live _ _ _ HI) as L3. unfold need in L2. lia.
    + intros c [k H1]. apply lookup_delete_Some in H1 as [_ H1]. eapply (i_next _ _ _ HI). eauto.
Qed.

(** *** The functions *)
Lemma swx_0 {X} x n s (g : P X) f : n = 0 -> sw true x s g f -> swx x n s g (fun _ => f).
Proof. intros -> H. apply swx_sw, H. Qed.
Lemma p_resize_ok x s n v : INV x s -> fit n ->
  swx x n s (p_resize triv MEM MAX sz port bytes n v) (fun d => lift (f_resize triv (fun _ => d) n v)).
Proof.
  intros HI Hf. unfold p_resize, f_resize.
  apply (swx_lbind_r _ _ _ _ (fun d => if n =? 0 then ret None else f_alloc (fun _ => d) n) _
    (fun d newp => (match v_ptr v with
     | Some oldb => dassert (negb (Nat.eqb (v_cap v) 0)) ;;;
       for_range 0 (v_size v) (fun i =>
         (if Nat.ltb i n then (a <- load (Some oldb) i ;; construct newp i a) else ret tt) ;;;
         destroy triv (Some oldb) i) ;;;
       dealloc oldb (v_cap v)
     | None => ret tt end) ;;; ret (Vec (if Nat.ltb n (v_size v) then n else v_size v) n newp))).
  - destruct (Nat.eqb_spec n 0) as [->|Hn]; [apply swx_sw, sw_lret, HI|]. apply p_alloc_ok; [exact HI|lia|exact Hf].
  - intros d x' newp s' HI' _. apply sw_lbind; [|intros; apply sw_lret; assumption].
    destruct (v_ptr v) as [oldb|]; [|apply sw_lret, HI'].
    apply sw_lbind; [apply sw_onmem; [qt|exact HI']|]. intros _ s1 HI1 _.
    apply sw_lbind; [apply sw_onmem; [qt|exact HI1]|]. intros _ s2 HI2 _. apply p_dealloc_ok, HI2.
Qed.
Lemma p_resize_fill_ok x s n a v : INV x s -> fit n ->
  swx x n s (p_resize_fill triv MEM MAX sz port bytes n a v) (fun d => lift (f_resize_fill triv (fun _ => d) n a v)).
Proof.
  intros HI Hf. unfold p_resize_fill, f_resize_fill. destruct (Nat.eqb_spec n 0) as [->|Hn].
  { apply p_resize_ok; assumption. }
  apply (swx_lbind_r _ _ _ _ (fun d => f_alloc (fun _ => d) n) _
    (fun d newp => (match v_ptr v with
     | Some oldb => for_range 0 (v_size v) (fun i =>
         (if Nat.ltb i n then (a <- load (Some oldb) i ;; construct newp i a) else ret tt) ;;;
         destroy triv (Some oldb) i) ;;;
       dealloc oldb (v_cap v)
     | None => ret tt end) ;;;
     for_range (v_size v) (n - v_size v) (fun i => r <- read_arg a ;; construct newp i r) ;;; ret (Vec n n newp))).
  - apply p_alloc_ok; [exact HI|lia|exact Hf].
  - intros d x' newp s' HI' _. apply sw_lbind.
    + destruct (v_ptr v) as [oldb|]; [|apply sw_lret, HI'].
      apply sw_lbind; [apply sw_onmem; [qt|exact HI']|]. intros _ s2 HI2 _. apply p_dealloc_ok, HI2.
    + intros _ s1 HI1 _. apply sw_lbind; [apply sw_onmem; [qt|exact HI1]|]. intros _ s2 HI2 _. apply sw_lret, HI2.
Qed.
Lemma p_clear_ok x s v : INV x s -> sw true x s (p_clear triv MEM MAX sz port bytes v) (lift (v_clear triv v)).
Proof.
  intros HI. unfold p_clear, v_clear. apply sw_lbind; [|intros _ s1 HI1 _; apply sw_lret, HI1].
  destruct (v_ptr v) as [b|]; [|apply sw_lret, HI].
  apply sw_lbind; [apply sw_onmem; [qt|exact HI]|]. intros _ s2 HI2 _. apply p_dealloc_ok, HI2.
Qed.
Lemma p_fill_ok x s n a : INV x s -> fit n ->
  swx x n s (p_fill triv MEM MAX sz port bytes n a) (fun d => lift (f_fill triv (fun _ => d) n a)).
Proof.
  intros HI Hf. unfold p_fill, f_fill.
  apply (swx_lbind_l _ _ _ _ _ _ (fun d _ => v <- f_resize triv (fun _ => d) n v_empty ;;
    for_range 0 n (fun i => r <- read_arg a ;; construct (v_ptr v) i r) ;;; ret (Vec n n (v_ptr v)))).
  { apply sw_onmem; [qt|exact HI]. }
  intros _ s1 HI1 _.
  apply (swx_lbind_r _ _ _ _ (fun d => f_resize triv (fun _ => d) n v_empty) _ (fun d v =>
    for_range 0 n (fun i => r <- read_arg a ;; construct (v_ptr v) i r) ;;; ret (Vec n n (v_ptr v)))).
  - apply p_resize_ok; assumption.
  - intros d x' v s2 HI2 _. apply sw_lbind; [apply sw_onmem; [qt|exact HI2]|]. intros _ s3 HI3 _. apply sw_lret, HI3.
Qed.
Lemma p_copy_ok x s this ds : INV x s -> fit (v_cap ds) ->
  swx x (v_cap ds) s (p_copy_assign triv MEM MAX sz port bytes this ds) (fun d => lift (f_copy_assign triv (fun _ => d) this ds)).
Proof.
  intros HI Hf. unfold p_copy_assign, f_copy_assign.
  set (loop := fun v1 => for_range 0 (v_size ds) (fun i => destroy triv (v_ptr v1) i ;;; a <- load (A := A) (v_ptr ds) i ;; construct (v_ptr v1) i a)).
  apply (swx_lbind_l _ _ _ _ _ _ (fun d v0 => v1 <- f_resize triv (fun _ => d) (v_cap ds) v0 ;;
    loop v1 ;;; ret (Vec (v_size ds) (v_cap v1) (v_ptr v1)))).
  { apply p_clear_ok, HI. }
  intros v0 s1 HI1 _.
  apply (swx_lbind_r _ _ _ _ (fun d => f_resize triv (fun _ => d) (v_cap ds) v0) _ (fun d v1 =>
    loop v1 ;;; ret (Vec (v_size ds) (v_cap v1) (v_ptr v1)))).
  - apply p_resize_ok; assumption.
  - intros d x' v1 s2 HI2 _. apply sw_lbind; [apply sw_onmem; [unfold loop; qt|exact HI2]|]. intros _ s3 HI3 _. apply sw_lret, HI3.
Qed.
Lemma p_move_ok x s this ds : INV x s ->
  sw true x s (p_move_assign triv MEM MAX sz port bytes this ds) (lift (v_move_assign triv this ds)).
Proof.
  intros HI. unfold p_move_assign, v_move_assign. apply sw_lbind; [apply p_clear_ok, HI|].
  intros _ s1 HI1 _. apply sw_lret, HI1.
Qed.
Definition preq (v : vec) : nat :=
  if Nat.ltb (v_cap v) (v_size v + 1) then (if negb (Nat.eqb (v_size v) 0) then 2 * v_size v else 2) else 0.
Lemma p_push_ok x s a v : INV x s -> fit (preq v) ->
  swx x (preq v) s (p_push_back triv MEM MAX sz port bytes a v) (fun d => lift (f_push_back triv (fun _ => d) a v)).
Proof.
  intros HI Hf. unfold p_push_back, f_push_back.
  apply (swx_lbind_r _ _ _ _ (fun d => if Nat.ltb (v_cap v) (v_size v + 1)
         then (if negb (Nat.eqb (v_size v) 0) then f_resize triv (fun _ => d) (2 * v_size v) v else f_resize triv (fun _ => d) 2 v)
         else ret v) _ (fun d v1 => r <- read_arg a ;; construct (v_ptr v1) (v_size v1) r ;;;
         ret (Vec (v_size v1 + 1) (v_cap v1) (v_ptr v1)))).
  - unfold preq in *. destruct (v_cap v <? v_size v + 1); [|apply swx_sw, sw_lret, HI].
    destruct (negb (v_size v =? 0)); apply p_resize_ok; assumption.
  - intros d x' v1 s1 HI1 _. apply sw_lbind; [apply sw_onmem; [qt|exact HI1]|]. intros r s2 HI2 _.
    apply sw_lbind; [apply sw_onmem; [qt|exact HI2]|]. intros _ s3 HI3 _. apply sw_lret, HI3.
Qed.
Lemma p_pop_ok x s v n : INV x s -> fit n ->
  (0 < v_size v -> n = if Nat.ltb (v_size v - 1) (v_cap v / 3) then v_cap v / 2 else 0) ->
  swx x n s (p_pop_back triv MEM MAX sz port bytes v) (fun d => lift (f_pop_back triv (fun _ => d) v)).
Proof.
  intros HI Hf Hn. unfold p_pop_back, f_pop_back.
  apply (swx_lbind_l _ _ _ _ _ _ (fun d _ => destroy triv (v_ptr v) (v_size v - 1) ;;;
    if Nat.ltb (v_size v - 1) (v_cap v / 3) then f_resize triv (fun _ => d) (v_cap v / 2) (Vec (v_size v - 1) (v_cap v) (v_ptr v))
    else ret (Vec (v_size v - 1) (v_cap v) (v_ptr v)))).
  { apply sw_onmem; [qt|exact HI]. }
  intros r1 s1 HI1 Hd. assert (H0 : 0 < v_size v).
  { destruct (Nat.ltb_spec 0 (v_size v)); [assumption|]. discriminate. }
  specialize (Hn H0). subst n.
  apply (swx_lbind_l _ _ _ _ _ _ (fun d _ =>
    if Nat.ltb (v_size v - 1) (v_cap v / 3) then f_resize triv (fun _ => d) (v_cap v / 2) (Vec (v_size v - 1) (v_cap v) (v_ptr v))
    else ret (Vec (v_size v - 1) (v_cap v) (v_ptr v)))).
  { apply sw_onmem; [qt|exact HI1]. }
  intros _ s2 HI2 _. destruct (v_size v - 1 <? v_cap v / 3); [apply p_resize_ok; assumption|apply swx_sw, sw_lret, HI2].
Qed.

(** *** Operations *)
Lemma obj_inv id (w : world) v w' : obj id w = Ok (v, w') -> w_objs w !! id = Some v /\ w' = w.
Proof. unfold obj. destruct (w_objs w !! id); [|discriminate]. intros [= <- <-]. auto. Qed.
Lemma finv_some (w : world) σ id v : finv w σ -> w_objs w !! id = Some v ->
  cap σ id = v_cap v /\ len σ id = v_size v.
Proof.
  intros HF Hv. pose proof (fi_rep _ _ HF id) as H. rewrite Hv in H. unfold cap, len.
  destruct (σ !! id) as [l|]; [|contradiction]. destruct H as [Hr Hc]. split; [auto|]. symmetry. eapply frep_size, Hr.
Qed.
Lemma finv_preq (w : world) σ id v : finv w σ -> w_objs w !! id = Some v ->
  (if len σ id =? cap σ id then cap_push (len σ id) (cap σ id) else 0) = preq v.
Proof.
  intros HF Hv. destruct (finv_some _ _ _ _ HF Hv) as [-> ->].
  assert (Hle : v_size v <= v_cap v).
  { pose proof (fi_rep _ _ HF id) as H. rewrite Hv in H. destruct (σ !! id) as [l|]; [|contradiction].
    destruct H as [[(Hs & Hc & _)|(_ & Hs & _)] _]; lia. }
  unfold preq, cap_push. destruct (Nat.eqb_spec (v_size v) (v_cap v)), (Nat.ltb_spec (v_cap v) (v_size v + 1)); try lia.
  destruct (Nat.eqb_spec (v_size v) 0); cbn [negb]; lia.
Qed.
Lemma pop_req (s c : nat) :
  (if cap_pop (s - 1) c =? c then 0 else cap_pop (s - 1) c) = if s - 1 <? c / 3 then c / 2 else 0.
Proof.
  unfold cap_pop. destruct (Nat.ltb_spec (s - 1) (c / 3)); [|rewrite Nat.eqb_refl; reflexivity].
  destruct (Nat.eqb_spec (c / 2) c) as [E|]; [|reflexivity].
  assert (c = 0) by (destruct c; [reflexivity|]; pose proof (Nat.div_lt (S c) 2); lia). subst. cbn in *. lia.
Qed.

Ltac tail := intros; repeat (lazymatch goal with |- sw _ _ _ (bind _ _) _ => apply sw_bind; [apply sw_quiet; [wq|assumption]|intros _ ? ? _] end); apply sw_ret; assumption.
Lemma p_step_ok x s σ o : INV x s -> finv (pw_w s) σ -> fit (req (WOp o) σ) ->
  swx x (req (WOp o) σ) s (p_step triv MEM MAX sz port bytes o) (fun d => f_step triv (fun _ => d) o).
Proof.
  intros HI HF Hf. destruct o; cbn [req] in *; cbn [p_step f_step];
    try (apply swx_0; [reflexivity|]; apply sw_quiet; [cbn [v_step]; wq|exact HI]).
  - (* OFill *)
    apply (swx_bind_l _ _ _ _ _ _ (fun d _ => v <- lift (f_fill triv (fun _ => d) n (AVal a)) ;; set_obj id v ;;; ret RUnit)).
    { apply sw_quiet; [wq|exact HI]. } intros r1 s1 HI1 E1.
    apply (swx_bind_r _ _ _ _ (fun d => lift (f_fill triv (fun _ => d) n (AVal a))) _ (fun d v => set_obj id v ;;; ret RUnit)).
    + apply p_fill_ok; assumption.
    + tail.
  - (* OCopyNew *)
    apply (swx_bind_l _ _ _ _ _ _ (fun d _ => ds <- obj src ;; v <- lift (f_copy_assign triv (fun _ => d) v_empty ds) ;; set_obj id v ;;; ret RUnit)).
    { apply sw_quiet; [wq|exact HI]. } intros r1 s1 HI1 E1.
    apply (swx_bind_l _ _ _ _ _ _ (fun d ds => v <- lift (f_copy_assign triv (fun _ => d) v_empty ds) ;; set_obj id v ;;; ret RUnit)).
    { apply sw_quiet; [wq|exact HI1]. } intros ds s2 HI2 E2.
    assert (Ew : pw_w s1 = pw_w s). { unfold absent in E1. destruct (w_objs (pw_w s) !! id); [discriminate|]. congruence. }
    rewrite Ew in E2. apply obj_inv in E2 as [Hs E2]. destruct (finv_some _ _ _ _ HF Hs) as [Ec _]. rewrite Ec in *.
    apply (swx_bind_r _ _ _ _ (fun d => lift (f_copy_assign triv (fun _ => d) v_empty ds)) _ (fun d v => set_obj id v ;;; ret RUnit)).
    + apply p_copy_ok; assumption.
    + tail.
  - (* OMoveNew *)
    apply swx_0; [reflexivity|]. cbn [v_step].
    apply sw_bind; [apply sw_quiet; [wq|exact HI]|]. intros _ s1 HI1 _.
    apply sw_bind; [apply sw_quiet; [wq|exact HI1]|]. intros ds s2 HI2 _.
    apply sw_bind; [apply p_move_ok, HI2|]. intros r s3 HI3 _. tail.
  - (* OAssign *)
    apply (swx_bind_l _ _ _ _ _ _ (fun d this => ds <- obj src ;; if id =? src then ret RUnit else v <- lift (f_copy_assign triv (fun _ => d) this ds) ;; set_obj id v ;;; ret RUnit)).
    { apply sw_quiet; [wq|exact HI]. } intros this s1 HI1 E1. apply obj_inv in E1 as [_ E1].
    apply (swx_bind_l _ _ _ _ _ _ (fun d ds => if id =? src then ret RUnit else v <- lift (f_copy_assign triv (fun _ => d) this ds) ;; set_obj id v ;;; ret RUnit)).
    { apply sw_quiet; [wq|exact HI1]. } intros ds s2 HI2 E2. rewrite E1 in E2. apply obj_inv in E2 as [Hs E2].
    destruct (finv_some _ _ _ _ HF Hs) as [Ec _]. rewrite Ec in *.
    destruct (id =? src); [apply swx_sw, sw_ret, HI2|].
    apply (swx_bind_r _ _ _ _ (fun d => lift (f_copy_assign triv (fun _ => d) this ds)) _ (fun d v => set_obj id v ;;; ret RUnit)).
    + apply p_copy_ok; assumption.
    + tail.
  - (* OMoveAssign *)
    apply swx_0; [reflexivity|]. cbn [v_step].
    apply sw_bind; [apply sw_quiet; [wq|exact HI]|]. intros this s1 HI1 _.
    apply sw_bind; [apply sw_quiet; [wq|exact HI1]|]. intros ds s2 HI2 _.
    destruct (id =? src); [apply sw_ret, HI2|].
    apply sw_bind; [apply p_move_ok, HI2|]. intros r s3 HI3 _. tail.
  - (* OPush *)
    apply (swx_bind_l _ _ _ _ _ _ (fun d v => v' <- lift (f_push_back triv (fun _ => d) (AVal a) v) ;; set_obj id v' ;;; ret RUnit)).
    { apply sw_quiet; [wq|exact HI]. } intros v s1 HI1 E1. apply obj_inv in E1 as [Hv E1].
    rewrite (finv_preq _ _ _ _ HF Hv) in *.
    apply (swx_bind_r _ _ _ _ (fun d => lift (f_push_back triv (fun _ => d) (AVal a) v)) _ (fun d v => set_obj id v ;;; ret RUnit)).
    + apply p_push_ok; assumption.
    + tail.
  - (* OPop *)
    apply (swx_bind_l _ _ _ _ _ _ (fun d v => v' <- lift (f_pop_back triv (fun _ => d) v) ;; set_obj id v' ;;; ret RUnit)).
    { apply sw_quiet; [wq|exact HI]. } intros v s1 HI1 E1. apply obj_inv in E1 as [Hv E1].
    destruct (finv_some _ _ _ _ HF Hv) as [Ec El].
    apply (swx_bind_r _ _ _ _ (fun d => lift (f_pop_back triv (fun _ => d) v)) _ (fun d v => set_obj id v ;;; ret RUnit)).
    + apply p_pop_ok; [exact HI1|exact Hf|]. intros _. rewrite Ec, El. apply pop_req.
    + tail.
  - (* OResize *)
    apply (swx_bind_l _ _ _ _ _ _ (fun d v => v' <- lift (f_resize triv (fun _ => d) n v) ;; set_obj id v' ;;; ret RUnit)).
    { apply sw_quiet; [wq|exact HI]. } intros v s1 HI1 _.
    apply (swx_bind_r _ _ _ _ (fun d => lift (f_resize triv (fun _ => d) n v)) _ (fun d v => set_obj id v ;;; ret RUnit)).
    + apply p_resize_ok; assumption.
    + tail.
  - (* OResizeFill *)
    apply (swx_bind_l _ _ _ _ _ _ (fun d v => v' <- lift (f_resize_fill triv (fun _ => d) n (AVal a) v) ;; set_obj id v' ;;; ret RUnit)).
    { apply sw_quiet; [wq|exact HI]. } intros v s1 HI1 _.
    apply (swx_bind_r _ _ _ _ (fun d => lift (f_resize_fill triv (fun _ => d) n (AVal a) v)) _ (fun d v => set_obj id v ;;; ret RUnit)).
    + apply p_resize_fill_ok; assumption.
    + tail.
  - (* OClear *)
    apply swx_0; [reflexivity|]. cbn [v_step].
    apply sw_bind; [apply sw_quiet; [wq|exact HI]|]. intros v s1 HI1 _.
    apply sw_bind; [apply p_clear_ok, HI1|]. tail.
  - (* ODestroy *)
    apply swx_0; [reflexivity|]. cbn [v_step].
    apply sw_bind; [apply sw_quiet; [wq|exact HI]|]. intros v s1 HI1 _.
    apply sw_bind; [apply p_clear_ok, HI1|]. tail.
Qed.
Lemma pw_step_ok x s σ o : INV x s -> finv (pw_w s) σ -> fit (req o σ) ->
  swx x (req o σ) s (pw_step triv MEM MAX sz port bytes o) (fun d => fw_step triv (fun _ => d) o).
Proof.
  intros HI HF Hf. destruct o as [o|id|id src i]; [apply p_step_ok; assumption| |].
  - apply swx_0; [reflexivity|]. cbn [pw_step w_step]. apply sw_quiet; [wq|exact HI].
  - cbn [pw_step fw_step].
    apply (swx_bind_l _ _ _ _ _ _ (fun d v => u <- obj src ;; j <- lift (v_index u i) ;; if (j <? 0)%Z then ub
      else v' <- lift (f_push_back triv (fun _ => d) (ARef (v_ptr u) (Z.to_nat j)) v) ;; set_obj id v' ;;; ret RUnit)).
    { apply sw_quiet; [wq|exact HI]. } intros v s1 HI1 E1. apply obj_inv in E1 as [Hv E1].
    apply (swx_bind_l _ _ _ _ _ _ (fun d u => j <- lift (v_index u i) ;; if (j <? 0)%Z then ub
      else v' <- lift (f_push_back triv (fun _ => d) (ARef (v_ptr u) (Z.to_nat j)) v) ;; set_obj id v' ;;; ret RUnit)).
    { apply sw_quiet; [wq|exact HI1]. } intros u s2 HI2 E2.
    apply (swx_bind_l _ _ _ _ _ _ (fun d j => if (j <? 0)%Z then ub
      else v' <- lift (f_push_back triv (fun _ => d) (ARef (v_ptr u) (Z.to_nat j)) v) ;; set_obj id v' ;;; ret RUnit)).
    { apply sw_onmem; [apply q_index|exact HI2]. } intros j s3 HI3 E3.
    cbn [req] in *. rewrite (finv_preq _ _ _ _ HF Hv) in *.
    destruct (j <? 0)%Z. { exists false, true, (x - need (preq v))%Z. split; [apply sw_ub|auto]. }
    apply (swx_bind_r _ _ _ _ (fun d => lift (f_push_back triv (fun _ => d) (ARef (v_ptr u) (Z.to_nat j)) v)) _ (fun d v => set_obj id v ;;; ret RUnit)).
    + apply p_push_ok; assumption.
    + tail.
Qed.

(** *** Programs *)
Lemma pwrun_ok {X} (p : wprog A X) : forall x s σ, INV x s -> finv (pw_w s) σ -> fits triv sz p σ ->
  pwrun triv MEM MAX sz port bytes p s = Abort \/
  match lrun triv p σ with
  | Ok (r, σ') => exists s', pwrun triv MEM MAX sz port bytes p s = Ok (r, s') /\ finv (pw_w s') σ' /\ exists x', INV x' s'
  | Abort => pwrun triv MEM MAX sz port bytes p s = Abort
  | UB => True
  | Diverge => pwrun triv MEM MAX sz port bytes p s = Diverge
  end.
Proof.
  induction p as [r| | | |o k IH]; intros x s σ HI HF Hfit; cbn [pwrun lrun]; try (right; reflexivity || exact I).
  - right. exists s. split; [reflexivity|]. eauto.
  - destruct Hfit as [Hf Hrest]. destruct (pw_step_ok _ _ _ _ HI HF Hf) as (d & st & x' & [[_ Hs]|Hs] & _).
    { left. apply bind_abort, Hs. }
    destruct (fw_step_sim triv (fun _ => d) o (pw_w s) σ HF) as [Ha|Hsim].
    { rewrite Ha in Hs. left. apply bind_abort, Hs. }
    destruct (lw_step triv o σ) as [[r σ']| | |].
    + destruct Hsim as (w' & Ew & HF'). rewrite Ew in Hs. destruct Hs as (s' & Es & <- & HI').
      erewrite bind_ok by exact Es. exact (IH r _ _ _ HI' HF' Hrest).
    + rewrite Hsim in Hs. left. apply bind_abort, Hs.
    + right. exact I.
    + rewrite Hsim in Hs. right. apply bind_diverge, Hs.
Qed.
Lemma winv_finv (w : world) σ : winv w σ -> finv w σ.
Proof.
  intros [H1 H2 H3 H4 H5]. split; try assumption. intros id. specialize (H3 id).
  destruct (w_objs w !! id), (σ !! id); try assumption. destruct H3. split; [left|]; assumption.
Qed.
Lemma rounded_nonneg n : 0 <= n -> (0 <= rounded (Z.of_nat n * sz))%Z.
Proof. intros _. pose proof (rounded_bounds (Z.of_nat n * sz)). nia. Qed.
Lemma spent_nonneg {X} (p : wprog A X) : forall σ, (0 <= spent triv sz p σ)%Z.
Proof.
  induction p as [r| | | |o k IH]; intros σ; cbn [spent]; try lia.
  pose proof (rounded_nonneg (req o σ) ltac:(lia)). destruct (lw_step triv o σ) as [[r σ']| | |]; [|lia..].
  specialize (IH r σ'). lia.
Qed.
Lemma pwrun_enough {X} (p : wprog A X) : forall x s σ, INV x s -> winv (pw_w s) σ ->
  (spent triv sz p σ <= x)%Z -> (x <= MEM)%Z ->
  match lrun triv p σ with
  | Ok (r, σ') => exists s', pwrun triv MEM MAX sz port bytes p s = Ok (r, s') /\ winv (pw_w s') σ' /\ exists x', INV x' s'
  | Abort => pwrun triv MEM MAX sz port bytes p s = Abort
  | UB => True
  | Diverge => pwrun triv MEM MAX sz port bytes p s = Diverge
  end.
Proof.
  induction p as [r| | | |o k IH]; intros x s σ HI HW Hsp Hx; cbn [pwrun lrun]; try (reflexivity || exact I).
  - exists s. split; [reflexivity|]. eauto.
  - cbn [spent] in Hsp.
    assert (Htail : (0 <= match lw_step triv o σ with Ok (r, s') => spent triv sz (k r) s' | _ => 0 end)%Z).
    { destruct (lw_step triv o σ) as [[r σ']| | |]; [apply spent_nonneg|lia..]. }
    assert (Hf : fit (req o σ)).
    { unfold fit. destruct HP as (_ & _ & _ & HM). pose proof (rounded_bounds (Z.of_nat (req o σ) * sz)). lia. }
    destruct (pw_step_ok _ _ _ _ HI (winv_finv _ _ HW) Hf) as (d & st & x' & Hs & Hen).
    destruct (Hen ltac:(unfold need; lia)) as (-> & -> & ->). destruct Hs as [[[=] _]|Hs].
    pose proof (nw_step triv (fun _ => false) ltac:(auto) o (pw_w s)) as En.
    pose proof (w_step_sim triv o (pw_w s) σ HW) as Hsim. rewrite <- En in Hsim. unfold sim_res in Hsim.
    destruct (lw_step triv o σ) as [[r σ']| | |].
    + destruct Hsim as (w' & Ew & HW'). rewrite Ew in Hs. destruct Hs as (s' & Es & <- & HI').
      erewrite bind_ok by exact Es. apply (IH r _ _ _ HI' HW').
      * unfold need. lia.
      * unfold need. pose proof (rounded_nonneg (req o σ) ltac:(lia)). lia.
    + rewrite Hsim in Hs. apply bind_abort, Hs.
    + exact I.
    + rewrite Hsim in Hs. apply bind_diverge, Hs.
Qed.

Lemma INV_pool x s σ : INV x s -> finv (pw_w s) σ -> pool_ok MEM sz s.
Proof.
  intros [led HI] HF. destruct (disjoint MEM MAX HP _ _ (i_reach _ _ _ HI)) as (D1 & D2 & _).
  pose proof (finv_storage (fun _ => false) _ _ HF) as (_ & S1 & _ & S3 & _).
  assert (Hb : forall id v b, w_objs (pw_w s) !! id = Some v -> v_ptr v = Some b ->
    exists a, pw_addr s !! b = Some a /\ led !! a = Some (Z.of_nat (v_cap v) * sz)%Z).
  { intros id v b Hv Hp. destruct (S1 _ _ _ Hv Hp) as (cs & Hcs & Hlen & _). rewrite <- Hlen.
    apply (i_addr _ _ _ HI). unfold lens. rewrite lookup_fmap, Hcs. reflexivity. }
  split; [|split].
  - intros id v b Hv Hp. destruct (Hb _ _ _ Hv Hp) as (a & Ha & Hl). exists a. split; [exact Ha|].
    destruct (D1 _ _ Hl) as (H1 & H2 & H3 & H4). split_and!; [exact H1|exact H2|lia].
  - intros i j vi vj b c a a' Hij Hi Hj Hpi Hpj Ha Ha'.
    destruct (Hb _ _ _ Hi Hpi) as (a1 & E1 & L1). destruct (Hb _ _ _ Hj Hpj) as (a2 & E2 & L2).
    assert (a1 = a) by congruence. assert (a2 = a') by congruence. subst a1 a2.
    assert (Hne : a <> a').
    { intros ->. assert (b = c) by exact (i_inj _ _ _ HI _ _ _ Ha Ha'). subst c. apply Hij. eapply S3; eassumption. }
    intros y Hy Hy'. apply (D2 _ _ _ _ L1 L2 Hne y); unfold within in *;
      [pose proof (rounded_bounds (Z.of_nat (v_cap vi) * sz))|pose proof (rounded_bounds (Z.of_nat (v_cap vj) * sz))]; lia.
  - destruct (conserve MEM MAX HP _ _ (i_reach _ _ _ HI)) as (-> & _). rewrite (i_live _ _ _ HI). reflexivity.
Qed.

Lemma pool_programs {X} (p : wprog A X) : fits triv sz p ∅ ->
  pwrun triv MEM MAX sz port bytes p (pw_init MEM MAX) = Abort \/
  match lrun triv p ∅ with
  | Ok (r, σ') => exists s', pwrun triv MEM MAX sz port bytes p (pw_init MEM MAX) = Ok (r, s') /\
      view (pw_w s') = σ' /\ storage_ok (pw_w s') /\ pool_ok MEM sz s'
  | Abort => pwrun triv MEM MAX sz port bytes p (pw_init MEM MAX) = Abort
  | UB => True
  | Diverge => pwrun triv MEM MAX sz port bytes p (pw_init MEM MAX) = Diverge
  end.
Proof.
  intros Hf. destruct (pwrun_ok p _ _ _ INV_init finv_init Hf) as [H|H]; [left; exact H|right].
  destruct (lrun triv p ∅) as [[r σ']| | |]; try exact H. destruct H as (s' & E & HF & x' & HI). exists s'.
  split; [exact E|]. split; [apply finv_view, HF|]. split; [exact (finv_storage (fun _ => false) _ _ HF)|]. eapply INV_pool; eassumption.
Qed.
Lemma pool_enough {X} (p : wprog A X) : (spent triv sz p ∅ <= MEM)%Z ->
  match lrun triv p ∅ with
  | Ok (r, σ') => exists s', pwrun triv MEM MAX sz port bytes p (pw_init MEM MAX) = Ok (r, s') /\
      view (pw_w s') = σ' /\ storage_ok (pw_w s') /\ pool_ok MEM sz s'
  | Abort => pwrun triv MEM MAX sz port bytes p (pw_init MEM MAX) = Abort
  | UB => True
  | Diverge => pwrun triv MEM MAX sz port bytes p (pw_init MEM MAX) = Diverge
  end.
Proof.
  intros Hf. pose proof (pwrun_enough p _ _ _ INV_init winv_init Hf ltac:(lia)) as H.
  destruct (lrun triv p ∅) as [[r σ']| | |]; try exact H. destruct H as (s' & E & HW & x' & HI). exists s'.
  split; [exact E|]. split; [apply winv_view, HW|]. split; [eapply winv_storage, HW|]. eapply INV_pool; [eassumption|apply winv_finv, HW].
Qed.
End VecPool.
