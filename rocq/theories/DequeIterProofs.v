(** Deque iterators follow their specification. *)
From Verif Require Import Base VectorModel VectorSpec Adapter Hist ListModel DequeModel DequeSpec DequeIterModel DequeIterSpec
  DequeProofs DequeResize DequeHist DequeHist2 DequeGeo.

Section Iter.
Context {A : Type} (N : nat) (HN : 0 < N) (eqb : A -> A -> bool).
Implicit Types (st : dst A) (l : list A) (q : dq) (t : list nat) (i : diter).
Notation sw := (gmap nat (list A * bool)).
Notation winv := (winv (A := A) N).

(** Iterator [i] is at place [pl]. *)
Definition stands t (p n len : nat) (id : nat) (mv : bool) i : Prop :=
  if mv then n <= len /\ at_pos N id t (p + n) i else n < len /\ exists b o, cell_at N t (p + n) b o /\ i_cur i = PAt b o.
Definition place_ok (s : sw) st (pl : dplace) i : Prop := exists l q t p, s !! dp_id pl = Some (l, true) /\ d_obj st !! dp_id pl = Some q /\
  geom N (dp_id pl) q t p /\ stands t p (dp_ix pl) (length l) (dp_id pl) (dp_mov pl) i.
Definition jinv (s : jspec A) (w : jworld A) : Prop := winv (j_dqs s) (fst w) /\
  forall k pl, j_its s !! k = Some pl -> exists i, snd w !! k = Some i /\ place_ok (j_dqs s) (fst w) pl i.

Lemma at_cell id t p i : at_pos N id t p i -> p < length t * N -> exists b o, cell_at N t p b o /\ i_cur i = PAt b o.
Proof.
  intros H Hp. destruct (at_pos_inside N HN _ _ _ _ H Hp) as (b & o & Ht & Hc & _ & E & Ho). exists b, o. split; [|exact Hc]. exists (i_map i). auto.
Qed.
Lemma stands_cell t p n len id mv i : stands t p n len id mv i -> n < len -> p + len <= length t * N -> exists b o, cell_at N t (p + n) b o /\ i_cur i = PAt b o.
Proof. destruct mv; intros [_ H] Hn Hl; [|exact H]. apply (at_cell _ _ _ _ H). lia. Qed.
Lemma cell_unique t x b o b' o' : cell_at N t x b o -> cell_at N t x b' o' -> b = b' /\ o = o'.
Proof.
  intros (j & Hj & Ho & E) (j' & Hj' & Ho' & E'). rewrite E in E'. apply (pos_unique N HN) in E' as [-> ->]; [|assumption..]. split; congruence.
Qed.
Lemma cell_pos t x x' b o : NoDup t -> cell_at N t x b o -> cell_at N t x' b o -> x = x'.
Proof. intros Hnd (j & Hj & _ & ->) (j' & Hj' & _ & ->). rewrite (NoDup_lookup _ _ _ _ Hnd Hj Hj'). reflexivity. Qed.
Lemma rdy_fit (H : gmap nat (list (option A))) id l q t p : rdy_ok N H id l q t p -> p + length l <= length t * N.
Proof. intros (_ & _ & _ & _ & _ & _ & He & _). apply (at_pos_le N HN) in He. exact He. Qed.

(** Pointers to places of one deque are equal when the indices are. *)
Lemma stands_eqp t p n n' len id mv mv' i i' : NoDup t -> p + len <= length t * N -> stands t p n len id mv i -> stands t p n' len id mv' i' ->
  eqp (i_cur i) (i_cur i') = (n =? n').
Proof.
  intros Hnd Hfit.
  assert (Hgen : forall n n' i i' mv, n < len -> (exists b o, cell_at N t (p + n) b o /\ i_cur i = PAt b o) -> stands t p n' len id mv i' -> eqp (i_cur i) (i_cur i') = (n =? n')).
  { intros m m' j j' mv2 Hm (b & o & Hc & E) H'. destruct (decide (m' < len)) as [Hlt|Hge].
    - destruct (stands_cell _ _ _ _ _ _ _ H' Hlt Hfit) as (b' & o' & Hc' & E'). unfold eqp. rewrite E, E'. destruct (Nat.eqb_spec m m') as [->|Hne].
      + destruct (cell_unique _ _ _ _ _ _ Hc Hc') as [-> ->]. apply bool_decide_eq_true_2. reflexivity.
      + apply bool_decide_eq_false_2. intros [= -> ->]. apply Hne. pose proof (cell_pos _ _ _ _ _ Hnd Hc Hc'). lia.
    - destruct mv2; [|destruct H'; lia]. destruct H' as [Hle H']. assert (m' = len) as -> by lia.
      destruct (Nat.eqb_spec m len) as [->|_]; [lia|]. unfold eqp. apply bool_decide_eq_false_2. rewrite E. intros E'. destruct H' as (b' & o' & Ht' & Hc' & _ & Ep & Ho').
      rewrite Hc' in E'. injection E' as -> ->. destruct Hc as (jj & Hj & Ho & Ex). rewrite (NoDup_lookup _ _ _ _ Hnd Hj Ht') in Ex. lia. }
  assert (Hsym : forall i i', eqp (i_cur i) (i_cur i') = eqp (i_cur i') (i_cur i)).
  { intros j j'. unfold eqp. destruct (decide (i_cur j = i_cur j')) as [E|E]; [rewrite !bool_decide_eq_true_2|rewrite !bool_decide_eq_false_2]; congruence. }
  intros H H'. destruct (decide (n < len)) as [Hn|Hn]; [eapply Hgen; [exact Hn|eapply stands_cell; eassumption|exact H']|].
  destruct (decide (n' < len)) as [Hn'|Hn']; [rewrite Hsym, Nat.eqb_sym; eapply Hgen; [exact Hn'|eapply stands_cell; eassumption|exact H]|].
  destruct mv; [|destruct H; lia]. destruct mv'; [|destruct H'; lia]. destruct H as [_ H], H' as [_ H'].
  rewrite (at_pos_eqp N HN _ _ _ _ _ _ _ Hnd H H'). destruct (Nat.eqb_spec (p + n) (p + n')), (Nat.eqb_spec n n'); lia || reflexivity.
Qed.

Lemma stands_ld st id l q t p n mv i x : rdy_ok N (d_blk st) id l q t p -> stands t p n (length l) id mv i -> l !! n = Some x -> cell_ld (i_cur i) st = Ok (x, st).
Proof.
  intros Hr H Hx. pose proof (rdy_fit _ _ _ _ _ _ Hr) as Hfit. apply lookup_lt_Some in Hx as Hn. destruct (stands_cell _ _ _ _ _ _ _ H Hn Hfit) as (b & o & (j & Hj & Ho & E) & Hc).
  destruct Hr as (_ & _ & _ & _ & _ & _ & _ & Hh). unfold cell_ld. rewrite Hc, (Hh _ _ Hj), blockat_lookup, <- E, cellval_in by first [exact Ho|lia]. replace (p + n - p) with n by lia. rewrite Hx. reflexivity.
Qed.

(** ** Calls on deques *)
Lemma place_frame (s s' : sw) st st' pl i : place_ok s st pl i -> d_obj st' !! dp_id pl = d_obj st !! dp_id pl -> s' !! dp_id pl = s !! dp_id pl -> place_ok s' st' pl i.
Proof. intros (l & q & t & p & E & Hq & G & H) E1 E2. exists l, q, t, p. rewrite E1, E2. auto. Qed.
Lemma place_push (s : sw) st st' id l l' q' t' p' pl i x y :
  winv s st -> dp_id pl = id -> s !! id = Some (l, true) -> place_ok s st pl i -> dp_ix pl < length l ->
  d_obj st' !! id = Some q' -> geom N id q' t' y -> y + x = p' + dp_ix pl -> x < length l' ->
  (exists q t p full, d_obj st !! id = Some q /\ geom N id q t p /\ pushed_to N t p (length l) full t' p') ->
  place_ok (<[id := (l', true)]> s) st' (DP id x false) i.
Proof.
  intros Hw <- E (l0 & q0 & t0 & p0 & E0 & Hq0 & G0 & H) Hn Hq' G' Hx Hx' (q & t & p & full & Hq & G & Hg).
  rewrite E in E0. injection E0 as <-. rewrite Hq in Hq0. injection Hq0 as <-. destruct (geom_unique _ _ _ _ _ _ _ G G0) as [-> ->].
  pose proof (rdy_fit _ _ _ _ _ _ (winv_rdy N HN _ _ _ _ _ _ _ Hw E Hq G)) as Hfit. destruct (stands_cell _ _ _ _ _ _ _ H Hn Hfit) as (b & o & Hc & Ei).
  exists l', q', t', y. cbn [dp_id dp_ix dp_mov]. rewrite lookup_insert. split; [reflexivity|]. split; [exact Hq'|]. split; [exact G'|]. split; [exact Hx'|].
  exists b, o. split; [|exact Ei]. rewrite Hx. destruct Hg as [(-> & ->)|(_ & _ & Hk & _)]; [exact Hc|apply Hk; assumption].
Qed.

Lemma step_places o (s s' : sw) st st' r pl pl' i : winv s st -> ds_step o s = SVal (r, s') -> dq_step N o st = Ok (r, st') -> place_ok s st pl i ->
  after o s pl = Some pl' -> place_ok s' st' pl' i.
Proof.
  intros Hw Hs R Hpl Ha. pose proof Hpl as (l & q & t & p & E & Hq & G & Hst).
  assert (Hread : (dop_writes o = [] \/ (exists id, o = DAssign id id \/ o = DMoveAssign id id)) -> Some pl = Some pl' -> place_ok s' st' pl' i).
  { intros Ho [= <-]. destruct (step_read N HN _ _ _ _ _ _ Hw Hs R Ho) as [-> ->]. exact Hpl. }
  assert (Hother : dp_id pl ∉ dop_writes o -> Some pl = Some pl' -> place_ok s' st' pl' i).
  { intros Ho [= <-]. destruct (step_frame N HN _ _ _ _ _ _ _ Hw Hs R Ho) as [E1 E2]. eapply place_frame; eassumption. }
  assert (Hown : forall id rr, dop_writes o = [id] -> after o s pl = (if Nat.eqb (dp_id pl) id then rr else Some pl) -> (dp_id pl = id -> rr = Some pl' -> place_ok s' st' pl' i) -> place_ok s' st' pl' i).
  { intros id rr Ho Ea Hcase. rewrite Ea in Ha. destruct (Nat.eqb_spec (dp_id pl) id) as [Eid|Hne]; [auto|]. apply Hother; [|exact Ha]. rewrite Ho, elem_of_list_singleton. exact Hne. }
  destruct o as [k|k src|k src|k src|k src|k|k|k x|k x|k x|k|k|k|k|k|k z|k|k|k|k]; try (apply Hread; [left; reflexivity|exact Ha]);
    try (eapply Hown; [reflexivity|reflexivity|]; intros <- Hr; cbn [ds_step dq_step] in Hs, R; unfold with_dq in Hs; rewrite ?E in Hs; unfold len_of in Hr; rewrite ?E in Hr; try discriminate Hr).
  - discriminate Hs.
  - cbn [after] in Ha. destruct (Nat.eqb_spec k src) as [->|Hne]; [apply Hread; [right; eauto|exact Ha]|]. eapply (Hown k None); [reflexivity| |discriminate]. cbn [after].
    rewrite (proj2 (Nat.eqb_neq _ _) Hne). reflexivity.
  - cbn [after] in Ha. destruct (Nat.eqb_spec k src) as [->|Hne]; [apply Hread; [right; eauto|exact Ha]|]. cbn [ds_step] in Hs. unfold with_dq in Hs.
    rewrite (proj2 (Nat.eqb_neq _ _) Hne) in Hs. destruct (s !! k) as [[]|]; discriminate.
  - injection Hs as <- <-. apply unit_inv in R as [R _]. destruct (Nat.ltb_spec (dp_ix pl) (length l)) as [Hn|]; [|discriminate]. injection Hr as <-.
    destruct (push_back_geo N HN s st _ l true x Hw E) as (st2 & q2 & t2 & p2 & R2 & _ & Ho & G2 & _ & q0 & t0 & p0 & Hq0 & G0 & Hg). rewrite R in R2. injection R2 as <-.
    eapply (place_push s st st' _ l _ q2 t2 p2 pl i (dp_ix pl) p2 Hw eq_refl E Hpl Hn); [rewrite Ho; apply lookup_insert|exact G2|reflexivity|rewrite app_length; simpl; lia|]. exists q0, t0, p0, (p0 + length l = length t0 * N). auto.
  - injection Hs as <- <-. apply unit_inv in R as [R _]. destruct (Nat.ltb_spec (dp_ix pl) (length l)) as [Hn|]; [|discriminate]. injection Hr as <-.
    destruct (push_front_geo N HN s st _ l true x Hw E) as (st2 & q2 & t2 & p2 & R2 & _ & Ho & G2 & Hp2 & _ & q0 & t0 & p0 & Hq0 & G0 & Hg). rewrite R in R2. injection R2 as <-.
    eapply (place_push s st st' _ l _ q2 t2 p2 pl i (S (dp_ix pl)) (pred p2) Hw eq_refl E Hpl Hn); [rewrite Ho; apply lookup_insert|exact G2|lia|simpl; lia|]. exists q0, t0, p0, (p0 = 0). auto.
  - injection Hs as <- <-. apply unit_inv in R as [R _]. destruct (Nat.ltb_spec (dp_ix pl) (length l)) as [Hn|]; [|discriminate]. injection Hr as <-.
    destruct (push_back_geo N HN s st _ l true x Hw E) as (st2 & q2 & t2 & p2 & R2 & _ & Ho & G2 & _ & q0 & t0 & p0 & Hq0 & G0 & Hg). rewrite R in R2. injection R2 as <-.
    eapply (place_push s st st' _ l _ q2 t2 p2 pl i (dp_ix pl) p2 Hw eq_refl E Hpl Hn); [rewrite Ho; apply lookup_insert|exact G2|reflexivity|rewrite app_length; simpl; lia|]. exists q0, t0, p0, (p0 + length l = length t0 * N). auto.
  - destruct l as [|y l0]; [discriminate|]. destruct (exists_last (l := y :: l0)) as (l1 & x1 & El); [discriminate|].
    assert (Erl : removelast (y :: l0) = l1) by (rewrite El; apply removelast_last). rewrite Erl in Hs. injection Hs as <- <-. apply unit_inv in R as [R _]. rewrite El in *. clear El Erl.
    rewrite app_length in Hr. cbn [length] in Hr. destruct (Nat.ltb_spec (S (dp_ix pl)) (length l1 + 1)) as [Hn|]; [|discriminate]. injection Hr as <-.
    destruct (pop_back_geo N HN s st _ x1 l1 true Hw E) as (st2 & q0 & q' & t0 & p0 & R2 & _ & Ho & Hq0 & G0 & G' & _). rewrite R in R2. injection R2 as <-.
    rewrite Hq in Hq0. injection Hq0 as <-. destruct (geom_unique _ _ _ _ _ _ _ G G0) as [-> ->].
    exists l1, q', t, p. rewrite lookup_insert, Ho, lookup_insert. repeat (split; [first [reflexivity|assumption]|]).
    destruct (dp_mov pl); destruct Hst as [Hst1 Hst2]; split; first [lia|assumption].
  - destruct l as [|y l0]; [discriminate|]. injection Hs as <- <-. apply unit_inv in R as [R _]. destruct (dp_ix pl) as [|n] eqn:En; [discriminate|]. injection Hr as <-.
    destruct (pop_front_geo N HN s st _ y l0 true Hw E) as (st2 & q0 & q' & t0 & p0 & R2 & _ & Ho & Hq0 & G0 & G' & _). rewrite R in R2. injection R2 as <-.
    rewrite Hq in Hq0. injection Hq0 as <-. destruct (geom_unique _ _ _ _ _ _ _ G G0) as [-> ->].
    exists l0, q', t, (S p). cbn [dp_id dp_ix dp_mov]. rewrite lookup_insert, Ho, lookup_insert. repeat (split; [first [reflexivity|assumption]|]).
    unfold stands in *. replace (S p + n) with (p + S n) by lia. cbn [length] in Hst. destruct (dp_mov pl); destruct Hst as [Hst1 Hst2]; split; first [lia|assumption].
  - destruct l as [|y l0]; [discriminate|]. injection Hs as <- <-. apply unit_inv in R as [R _]. destruct (dp_ix pl) as [|n] eqn:En; [discriminate|]. injection Hr as <-.
    destruct (pop_front_geo N HN s st _ y l0 true Hw E) as (st2 & q0 & q' & t0 & p0 & R2 & _ & Ho & Hq0 & G0 & G' & _). rewrite R in R2. injection R2 as <-.
    rewrite Hq in Hq0. injection Hq0 as <-. destruct (geom_unique _ _ _ _ _ _ _ G G0) as [-> ->].
    exists l0, q', t, (S p). cbn [dp_id dp_ix dp_mov]. rewrite lookup_insert, Ho, lookup_insert. repeat (split; [first [reflexivity|assumption]|]).
    unfold stands in *. replace (S p + n) with (p + S n) by lia. cbn [length] in Hst. destruct (dp_mov pl); destruct Hst as [Hst1 Hst2]; split; first [lia|assumption].
Qed.

(** ** Iterator operations *)
Lemma on_deqs_ok {X} (m : M (dst A) X) w x st' : m (fst w) = Ok (x, st') -> on_deqs m w = Ok (x, (st', snd w)).
Proof. intros H. unfold on_deqs. rewrite H. reflexivity. Qed.
Lemma on_deqs_id {X} (m : M (dst A) X) (w : jworld A) x : m (fst w) = Ok (x, fst w) -> on_deqs m w = Ok (x, w).
Proof. intros H. rewrite (on_deqs_ok _ _ _ _ H). destruct w. reflexivity. Qed.
Lemma get_var_ok (w : jworld A) k i : snd w !! k = Some i -> get_var k w = Ok (i, w).
Proof. intros H. unfold get_var. rewrite H. reflexivity. Qed.
Lemma place_get (s : sw) st pl i : winv s st -> place_ok s st pl i -> exists l q t p, s !! dp_id pl = Some (l, true) /\ d_obj st !! dp_id pl = Some q /\
  rdy_ok N (d_blk st) (dp_id pl) l q t p /\ stands t p (dp_ix pl) (length l) (dp_id pl) (dp_mov pl) i /\ q_tab q = tabof t /\ NoDup t /\ p + length l <= length t * N /\ q_cap q = length t * N.
Proof.
  intros Hw (l & q & t & p & E & Hq & G & H). pose proof (winv_rdy N HN _ _ _ _ _ _ _ Hw E Hq G) as Hr. exists l, q, t, p. repeat (split; [assumption|]).
  split; [apply Hr|]. split; [apply Hr|]. split; [eapply rdy_fit; exact Hr|apply Hr].
Qed.
Lemma place_make (s : sw) st id n l q t p mv i : s !! id = Some (l, true) -> d_obj st !! id = Some q -> rdy_ok N (d_blk st) id l q t p -> stands t p n (length l) id mv i -> place_ok s st (DP id n mv) i.
Proof. intros E Hq Hr H. exists l, q, t, p. cbn [dp_id dp_ix dp_mov]. repeat (split; [assumption|]). split; [eapply rdy_geom; [exact HN|exact Hr]|exact H]. Qed.
Lemma jinv_set (s : jspec A) w k pl i : jinv s w -> place_ok (j_dqs s) (fst w) pl i -> jinv (set_pl s k pl) (fst w, <[k := i]> (snd w)).
Proof.
  intros [Hw Hi] Hp. split; [exact Hw|]. cbn [set_pl j_its j_dqs fst snd]. intros k' pl'. destruct (decide (k' = k)) as [->|Hne].
  - rewrite !lookup_insert. intros [= <-]. eauto.
  - rewrite !lookup_insert_ne by congruence. apply Hi.
Qed.
Lemma place_copy (s : sw) st pl i : winv s st -> place_ok s st pl i -> it_copy i st = Ok (i, st).
Proof.
  intros Hw Hp. destruct (place_get _ _ _ _ Hw Hp) as (l & q & t & p & E & Hq & Hr & Hst & _). unfold it_copy.
  assert (exists b o, i_cur i = PAt b o) as (b & o & ->).
  { destruct (dp_mov pl); destruct Hst as [_ Hst]; [destruct Hst as (b & o & _ & Hc & _)|destruct Hst as (b & o & _ & Hc)]; eauto. }
  reflexivity.
Qed.
Lemma place_rd (s : sw) st pl i : winv s st -> place_ok s st pl i -> rd (i_cur i) st = Ok (i_cur i, st).
Proof.
  intros Hw Hp. pose proof (place_copy _ _ _ _ Hw Hp) as R. unfold it_copy in R. destruct (i_cur i); [discriminate|reflexivity..].
Qed.

(** Moving by a number of positions. *)
Lemma shift_ok (s : sw) st pl l z pl' i : winv s st -> place_ok s st pl i -> s !! dp_id pl = Some (l, true) -> shifted pl l z = Some pl' ->
  exists i', it_plus N i z st = Ok (i', st) /\ place_ok s st pl' i' /\ it_minus N i (- z) st = Ok (i', st) /\
    (z = 1%Z -> it_next N i st = Ok (i', st)) /\ (z = (-1)%Z -> it_prev N i st = Ok (i', st)).
Proof.
  intros Hw Hp El Hs. destruct (place_get _ _ _ _ Hw Hp) as (l' & q & t & p & E & Hq & Hr & Hst & Et & Hnd & Hfit & _). rewrite El in E. injection E as <-.
  unfold shifted in Hs. destruct (dp_mov pl); [|discriminate]. cbn [andb] in Hs. set (m := (Z.of_nat (dp_ix pl) + z)%Z) in *.
  destruct (Z.leb_spec 0 m) as [H0|]; [|discriminate]. destruct (Z.leb_spec m (Z.of_nat (length l))) as [H1|]; [|discriminate]. injection Hs as <-. destruct Hst as [Hn Hat].
  assert (HX : exists i', (if (z <? 0)%Z then it_sub N (Z.to_nat (- z)) i else it_add N (Z.to_nat z) i) st = Ok (i', st) /\ at_pos N (dp_id pl) t (p + Z.to_nat m) i').
  { destruct (Z.ltb_spec z 0) as [Hz|Hz].
    - apply (it_sub_ok N HN st (dp_id pl) q t); [exact Hq|exact Et|exact Hnd|]. replace (p + Z.to_nat m + Z.to_nat (- z)) with (p + dp_ix pl) by lia. exact Hat.
    - replace (p + Z.to_nat m) with (p + dp_ix pl + Z.to_nat z) by lia. apply (it_add_ok N HN st (dp_id pl) q t); [exact Hq|exact Et|exact Hnd|exact Hat|lia]. }
  destruct HX as (i' & R & Hat'). exists i'. split; [exact R|]. split; [eapply place_make; try eassumption; split; [lia|exact Hat']|]. split; [|split].
  - unfold it_minus. destruct (Z.ltb_spec z 0) as [Hz|Hz].
    + rewrite (proj2 (Z.ltb_ge _ _)) by lia. exact R.
    + destruct (Z.ltb_spec (- z) 0) as [Hz2|Hz2]; [rewrite Z.opp_involutive; exact R|]. assert (z = 0%Z) as -> by lia. exact R.
  - intros ->. assert (R1 : it_add N 1 i st = Ok (i', st)) by exact R. clear R. rename R1 into R. cbn [it_add] in R. unfold bind in R. destruct (it_next N i st) as [[x w]| | |]; try discriminate. exact R.
  - intros ->. assert (R1 : it_sub N 1 i st = Ok (i', st)) by exact R. clear R. rename R1 into R. cbn [it_sub] in R. unfold bind in R. destruct (it_prev N i st) as [[x w]| | |]; try discriminate. exact R.
Qed.

Lemma find_ok st id q t p l a e m : d_obj st !! id = Some q -> rdy_ok N (d_blk st) id l q t p -> forall fuel n i, fuel + n > m -> n <= m -> m <= length l ->
  (exists mv, stands t p m (length l) id mv e) -> stands t p n (length l) id true i ->
  exists i', find_loop N eqb fuel a i e st = Ok (i', st) /\
    match first_at eqb a (take (m - n) (drop n l)) with Some k => n + k < m /\ stands t p (n + k) (length l) id true i' | None => i' = e end.
Proof.
  intros Hq Hr. pose proof (rdy_fit _ _ _ _ _ _ Hr) as Hfit. pose proof Hr as (Et & _ & _ & Hnd & _).
  induction fuel as [|fuel IH]; intros n i Hf Hn Hm He Hi; [lia|]. cbn [find_loop]. pose proof He as (mv & He'). rewrite (stands_eqp _ _ _ _ _ _ _ _ _ _ Hnd Hfit Hi He').
  destruct (Nat.eqb_spec n m) as [->|Hne].
  - rewrite Nat.sub_diag. cbn [take first_at]. exists e. split; [|reflexivity]. unfold it_copy.
    assert (exists b o, i_cur e = PAt b o) as (b & o & ->); [|reflexivity]. destruct mv; destruct He' as [_ He']; [destruct He' as (b & o & _ & Hc & _)|destruct He' as (b & o & _ & Hc)]; eauto.
  - destruct (lookup_lt_is_Some_2 l n) as [x Hx]; [lia|]. rewrite (bind_ok _ _ _ _ _ (stands_ld _ _ _ _ _ _ _ _ _ _ Hr Hi Hx)).
    rewrite (drop_S _ _ _ Hx). replace (m - n) with (S (m - S n)) by lia. cbn [take first_at]. destruct (eqb x a); [exists i; split; [reflexivity|]; rewrite Nat.add_0_r; split; [lia|exact Hi]|].
    destruct Hi as [_ Hi]. destruct (it_next_ok N HN st id q t _ _ Hq Et Hnd Hi) as (i1 & R & Hi1); [lia|]. rewrite (bind_ok _ _ _ _ _ R).
    destruct (IH (S n) i1) as (i' & R' & H'); [lia|lia|exact Hm|exact He|split; [lia|replace (p + S n) with (S (p + n)) by lia; exact Hi1]|]. exists i'. split; [exact R'|].
    destruct (first_at eqb a (take (m - S n) (drop (S n) l))) as [k|]; cbn [fmap option_fmap option_map]; [|exact H']. replace (n + S k) with (S n + k) by lia. exact H'.
Qed.
Lemma each_ok st id q t p l e m : d_obj st !! id = Some q -> rdy_ok N (d_blk st) id l q t p -> forall fuel n i acc, fuel + n > m -> n <= m -> m <= length l ->
  (exists mv, stands t p m (length l) id mv e) -> stands t p n (length l) id true i ->
  it_loop N fuel (fun acc a => ret (acc ++ [a])) i e acc st = Ok (acc ++ take (m - n) (drop n l), st).
Proof.
  intros Hq Hr. pose proof (rdy_fit _ _ _ _ _ _ Hr) as Hfit. pose proof Hr as (Et & _ & _ & Hnd & _).
  induction fuel as [|fuel IH]; intros n i acc Hf Hn Hm He Hi; [lia|]. cbn [it_loop]. pose proof He as (mv & He'). rewrite (stands_eqp _ _ _ _ _ _ _ _ _ _ Hnd Hfit Hi He').
  destruct (Nat.eqb_spec n m) as [->|Hne].
  - rewrite Nat.sub_diag. cbn [take]. rewrite app_nil_r. reflexivity.
  - destruct (lookup_lt_is_Some_2 l n) as [x Hx]; [lia|]. rewrite (bind_ok _ _ _ _ _ (stands_ld _ _ _ _ _ _ _ _ _ _ Hr Hi Hx)).
    rewrite (drop_S _ _ _ Hx). replace (m - n) with (S (m - S n)) by lia. cbn [take]. rewrite bind_ret.
    destruct Hi as [_ Hi]. destruct (it_next_ok N HN st id q t _ _ Hq Et Hnd Hi) as (i1 & R & Hi1); [lia|]. rewrite (bind_ok _ _ _ _ _ R).
    rewrite (IH (S n) i1) by first [lia|exact He|split; [lia|replace (p + S n) with (S (p + n)) by lia; exact Hi1]]. rewrite <- app_assoc. reflexivity.
Qed.

Lemma j_step_ok o (s : jspec A) w : jinv s w -> magree jinv (js_step eqb o s) (j_step N eqb o w).
Proof.
  intros Hj. pose proof Hj as [Hw Hi].
  assert (Hset : forall k pl i, place_ok (j_dqs s) (fst w) pl i -> exists w', (set_var k i ;;; ret RUnit)%cpp w = Ok (RUnit : out A, w') /\ jinv (set_pl s k pl) w').
  { intros k pl i Hp. eexists. split; [reflexivity|]. apply jinv_set; assumption. }
  assert (Hmove : forall k j z (m : diter -> M (dst A) diter), (forall pl l pl' i, place_ok (j_dqs s) (fst w) pl i -> j_dqs s !! dp_id pl = Some (l, true) -> shifted pl l z = Some pl' ->
      exists i', m i (fst w) = Ok (i', fst w) /\ place_ok (j_dqs s) (fst w) pl' i') ->
    magree jinv (move_by s k j z) ((i <- get_var j ;; i' <- on_deqs (m i) ;; set_var k i' ;;; ret RUnit)%cpp w)).
  { intros k j z m Hm. unfold move_by, with_pl. destruct (j_its s !! j) as [pl|] eqn:E; [|exact I]. destruct (Hi _ _ E) as (i & Ei & Hp).
    destruct (place_get _ _ _ _ Hw Hp) as (l & _ & _ & _ & El & _). rewrite El. destruct (shifted pl l z) as [pl'|] eqn:Es; [|exact I]. cbn [some_or].
    destruct (Hm _ _ _ _ Hp El Es) as (i' & R & Hp'). rewrite (bind_ok _ _ _ _ _ (get_var_ok _ _ _ Ei)), (bind_ok _ _ _ _ _ (on_deqs_id _ _ _ R)). apply Hset, Hp'. }
  assert (Hpost : forall k j z (m : diter -> M (dst A) diter), (forall pl l pl' i, place_ok (j_dqs s) (fst w) pl i -> j_dqs s !! dp_id pl = Some (l, true) -> shifted pl l z = Some pl' ->
      exists i', m i (fst w) = Ok (i', fst w) /\ place_ok (j_dqs s) (fst w) pl' i') ->
    magree jinv (post_by s k j z) ((i <- get_var j ;; i' <- on_deqs (m i) ;; set_var j i' ;;; set_var k i ;;; ret RUnit)%cpp w)).
  { intros k j z m Hm. unfold post_by, with_pl. destruct (j_its s !! j) as [pl|] eqn:E; [|exact I]. destruct (Hi _ _ E) as (i & Ei & Hp).
    destruct (place_get _ _ _ _ Hw Hp) as (l & _ & _ & _ & El & _). rewrite El. destruct (shifted pl l z) as [pl'|] eqn:Es; [|exact I]. cbn [some_or].
    destruct (Hm _ _ _ _ Hp El Es) as (i' & R & Hp'). rewrite (bind_ok _ _ _ _ _ (get_var_ok _ _ _ Ei)), (bind_ok _ _ _ _ _ (on_deqs_id _ _ _ R)).
    eexists. split; [reflexivity|]. apply (jinv_set _ (fst w, <[j := i']> (snd w))); [apply jinv_set; assumption|exact Hp]. }
  assert (Hsame : forall k j f, magree jinv (same_dq s k j (fun b => SVal (RBool (f b), s)))
    ((i <- get_var k ;; i' <- get_var j ;; p <- on_deqs (rd (i_cur i)) ;; p' <- on_deqs (rd (i_cur i')) ;; ret (RBool (f (eqp p p'))))%cpp w)).
  { intros k j f. unfold same_dq, with_pl. destruct (j_its s !! k) as [pl|] eqn:E; [|exact I]. destruct (Hi _ _ E) as (i & Ei & Hp).
    destruct (place_get _ _ _ _ Hw Hp) as (l & q & t & p & El & Hq & Hr & Hst & Et & Hnd & Hfit & _). rewrite El.
    destruct (j_its s !! j) as [pl'|] eqn:E'; [|exact I]. destruct (Hi _ _ E') as (i' & Ei' & Hp').
    destruct (place_get _ _ _ _ Hw Hp') as (l' & q' & t' & p' & El' & Hq' & Hr' & Hst' & _). rewrite El'. destruct (Nat.eqb_spec (dp_id pl) (dp_id pl')) as [Eid|]; [|exact I].
    rewrite <- Eid in *. rewrite El in El'. injection El' as <-. rewrite Hq in Hq'. injection Hq' as <-.
    destruct (geom_unique _ _ _ _ _ _ _ (rdy_geom N HN _ _ _ _ _ _ Hr) (rdy_geom N HN _ _ _ _ _ _ Hr')) as [-> ->].
    rewrite (bind_ok _ _ _ _ _ (get_var_ok _ _ _ Ei)), (bind_ok _ _ _ _ _ (get_var_ok _ _ _ Ei')), (bind_ok _ _ _ _ _ (on_deqs_id _ _ _ (place_rd _ _ _ _ Hw Hp))),
      (bind_ok _ _ _ _ _ (on_deqs_id _ _ _ (place_rd _ _ _ _ Hw Hp'))), (stands_eqp _ _ _ _ _ _ _ _ _ _ Hnd Hfit Hst Hst').
    exists w. split; [reflexivity|exact Hj]. }
  assert (Hbetween : forall b e, (forall g, between s b e g = SUnspec) \/
    exists pl pl' l q t p i i', j_dqs s !! dp_id pl = Some (l, true) /\ d_obj (fst w) !! dp_id pl = Some q /\ rdy_ok N (d_blk (fst w)) (dp_id pl) l q t p /\
      snd w !! b = Some i /\ snd w !! e = Some i' /\ dp_ix pl <= dp_ix pl' <= length l /\
      place_ok (j_dqs s) (fst w) pl' i' /\ stands t p (dp_ix pl') (length l) (dp_id pl) (dp_mov pl') i' /\ stands t p (dp_ix pl) (length l) (dp_id pl) true i /\
      loop_fuel i (fst w) = Ok (S (q_cap q), fst w) /\ it_copy i (fst w) = Ok (i, fst w) /\ length l <= q_cap q /\
      forall g, between s b e g = g pl pl' (take (dp_ix pl' - dp_ix pl) (drop (dp_ix pl) l))).
  { intros b e. unfold between, with_pl. destruct (j_its s !! b) as [pl|] eqn:E; [|left; reflexivity]. destruct (Hi _ _ E) as (i & Ei & Hp).
    destruct (place_get _ _ _ _ Hw Hp) as (l & q & t & p & El & Hq & Hr & Hst & Et & Hnd & Hfit & Hcap). rewrite El.
    destruct (j_its s !! e) as [pl'|] eqn:E'; [|left; reflexivity]. destruct (Hi _ _ E') as (i' & Ei' & Hp').
    destruct (place_get _ _ _ _ Hw Hp') as (l' & q' & t' & p' & El' & Hq' & Hr' & Hst' & _). rewrite El'. destruct (Nat.eqb_spec (dp_id pl) (dp_id pl')) as [Eid|]; [|left; reflexivity].
    destruct (dp_mov pl) eqn:Em; [|left; reflexivity]. cbn [andb]. destruct (Nat.leb_spec (dp_ix pl) (dp_ix pl')) as [Hle|]; [|left; reflexivity]. right.
    rewrite <- Eid in *. rewrite El in El'. injection El' as <-. rewrite Hq in Hq'. injection Hq' as <-.
    destruct (geom_unique _ _ _ _ _ _ _ (rdy_geom N HN _ _ _ _ _ _ Hr) (rdy_geom N HN _ _ _ _ _ _ Hr')) as [-> ->].
    exists pl, pl', l, q, t, p, i, i'. repeat (split; [assumption|]). split; [split; [exact Hle|]; destruct (dp_mov pl'); destruct Hst'; lia|]. repeat (split; [assumption|]).
    split; [destruct Hst as [_ (bb & oo & _ & _ & Htab & _)]; unfold loop_fuel; rewrite Htab, (bind_ok _ _ _ _ _ (q_get_ok _ _ _ Hq)); reflexivity|].
    split; [eapply place_copy; eassumption|]. split; [lia|reflexivity]. }
  destruct o as [o|k id|k id|k id z|k j|k|k|k j|k j|k j z|k j z|k|k j|k j|k b e a|b e]; cbn [js_step j_step].
  - (* a call on a deque *)
    pose proof (dq_step_ok N HN o _ _ Hw) as Hstep. unfold on_deqs. destruct (ds_step o (j_dqs s)) as [[r d]| |] eqn:Es; [|cbn in Hstep|exact I].
    + destruct Hstep as (st' & R & Hw'). rewrite R. eexists. split; [reflexivity|]. split; [exact Hw'|]. cbn [j_its j_dqs fst snd]. intros k pl' Hk.
      rewrite lookup_omap in Hk. destruct (j_its s !! k) as [pl|] eqn:Ek; [|discriminate]. destruct (Hi _ _ Ek) as (i & Ei & Hp). exists i. split; [exact Ei|].
      eapply step_places; [exact Hw|exact Es|exact R|exact Hp|exact Hk].
    + unfold magree. rewrite Hstep. reflexivity.
  - (* begin *) unfold with_dq. destruct (j_dqs s !! id) as [[l [|]]|] eqn:E; [|exact I|exact I]. destruct (winv_geom N HN _ _ _ _ Hw E) as (q & t & p & Hq & G & Hr).
    assert (Hp : place_ok (j_dqs s) (fst w) (DP id 0 true) (q_beg q)) by (eapply place_make; try eassumption; split; [lia|rewrite Nat.add_0_r; apply G]).
    rewrite (bind_ok _ _ _ _ _ (on_deqs_id _ _ _ (q_get_ok _ _ _ Hq))), (bind_ok _ _ _ _ _ (on_deqs_id _ _ _ (place_copy _ _ _ _ Hw Hp))). apply Hset, Hp.
  - (* end *) unfold with_dq. destruct (j_dqs s !! id) as [[l [|]]|] eqn:E; [|exact I|exact I]. destruct (winv_geom N HN _ _ _ _ Hw E) as (q & t & p & Hq & G & Hr).
    assert (Hp : place_ok (j_dqs s) (fst w) (DP id (length l) true) (q_end q)) by (eapply place_make; try eassumption; split; [lia|apply Hr]).
    rewrite (bind_ok _ _ _ _ _ (on_deqs_id _ _ _ (q_get_ok _ _ _ Hq))), (bind_ok _ _ _ _ _ (on_deqs_id _ _ _ (place_copy _ _ _ _ Hw Hp))). apply Hset, Hp.
  - (* reference *) unfold with_dq. destruct (j_dqs s !! id) as [[l r]|] eqn:E; [|exact I]. cbv zeta. set (n := (if z <? 0 then Z.of_nat (length l) + z else z)%Z).
    destruct (Z.leb_spec 0 n) as [H0|]; [|exact I]. destruct (Z.ltb_spec n (Z.of_nat (length l))) as [H1|]; [|exact I]. cbn [andb].
    assert (Hl : exists x, x ∈ l) by (destruct l as [|x l]; [simpl in *; lia|exists x; left]). destruct Hl as [x Hx].
    assert (r = true) as -> by (eapply nonempty_rdy; [exact Hw|exact E|exact Hx]). destruct (winv_geom N HN _ _ _ _ Hw E) as (q & t & p & Hq & G & Hr).
    assert (HX : exists i, (if (z <? 0)%Z then it_plus N (q_end q) z else it_plus N (q_beg q) z) (fst w) = Ok (i, fst w) /\ at_pos N id t (p + Z.to_nat n) i).
    { pose proof (rdy_fit _ _ _ _ _ _ Hr) as Hfit. destruct Hr as (Et & _ & _ & Hnd & _ & Hb & He & _). unfold n in *. unfold it_plus. destruct (Z.ltb_spec z 0) as [Hz|Hz].
      - apply (it_sub_ok N HN (fst w) id q t); [exact Hq|exact Et|exact Hnd|]. replace (p + Z.to_nat (Z.of_nat (length l) + z) + Z.to_nat (- z)) with (p + length l) by lia. exact He.
      - apply (it_add_ok N HN (fst w) id q t); [exact Hq|exact Et|exact Hnd|exact Hb|lia]. }
    destruct HX as (i & R & Hat). destruct (at_cell _ _ _ _ Hat) as (b & o & Hc & Ec); [pose proof (rdy_fit _ _ _ _ _ _ Hr); lia|].
    assert (R2 : dq_ref N id z (fst w) = Ok (It 0 (i_cur i) None, fst w)) by (unfold dq_ref; rewrite (bind_ok _ _ _ _ _ (q_get_ok _ _ _ Hq)), (bind_ok _ _ _ _ _ R); reflexivity).
    rewrite (bind_ok _ _ _ _ _ (on_deqs_id _ _ _ R2)). apply Hset. eapply place_make; try eassumption. split; [lia|]. exists b, o. split; [exact Hc|exact Ec].
  - (* copy *) unfold with_pl. destruct (j_its s !! j) as [pl|] eqn:E; [|exact I]. destruct (Hi _ _ E) as (i & Ei & Hp). destruct (place_get _ _ _ _ Hw Hp) as (l & _ & _ & _ & El & _). rewrite El.
    rewrite (bind_ok _ _ _ _ _ (get_var_ok _ _ _ Ei)), (bind_ok _ _ _ _ _ (on_deqs_id _ _ _ (place_copy _ _ _ _ Hw Hp))). apply Hset, Hp.
  - apply Hmove. intros pl l pl' i Hp El Es. destruct (shift_ok _ _ _ _ _ _ _ Hw Hp El Es) as (i' & _ & Hp' & _ & R & _). eauto.
  - apply Hmove. intros pl l pl' i Hp El Es. destruct (shift_ok _ _ _ _ _ _ _ Hw Hp El Es) as (i' & _ & Hp' & _ & _ & R). eauto.
  - apply Hpost. intros pl l pl' i Hp El Es. destruct (shift_ok _ _ _ _ _ _ _ Hw Hp El Es) as (i' & _ & Hp' & _ & R & _). eauto.
  - apply Hpost. intros pl l pl' i Hp El Es. destruct (shift_ok _ _ _ _ _ _ _ Hw Hp El Es) as (i' & _ & Hp' & _ & _ & R). eauto.
  - apply (Hmove k j z (fun i => it_plus N i z)). intros pl l pl' i Hp El Es. destruct (shift_ok _ _ _ _ _ _ _ Hw Hp El Es) as (i' & R & Hp' & _). eauto.
  - apply (Hmove k j (- z)%Z (fun i => it_minus N i z)). intros pl l pl' i Hp El Es. destruct (shift_ok _ _ _ _ _ _ _ Hw Hp El Es) as (i' & _ & Hp' & R & _). rewrite Z.opp_involutive in R. eauto.
  - (* read *) unfold with_pl. destruct (j_its s !! k) as [pl|] eqn:E; [|exact I]. destruct (Hi _ _ E) as (i & Ei & Hp).
    destruct (place_get _ _ _ _ Hw Hp) as (l & q & t & p & El & Hq & Hr & Hst & _). rewrite El. destruct (l !! dp_ix pl) as [x|] eqn:Ex; [|exact I]. cbn [some_or].
    rewrite (bind_ok _ _ _ _ _ (get_var_ok _ _ _ Ei)), (bind_ok _ _ _ _ _ (on_deqs_id _ _ _ (stands_ld _ _ _ _ _ _ _ _ _ _ Hr Hst Ex))). exists w. split; [reflexivity|exact Hj].
  - apply (Hsame k j (fun b => b)).
  - apply (Hsame k j negb).
  - (* find *)
    destruct (Hbetween b e) as [Hg|(pl & pl' & l & q & t & p & i & i' & El & Hq & Hr & Ei & Ei' & Hle & Hp' & Hst' & Hst & Hfuel & Hcopy & Hcap & Hg)]; rewrite Hg; [exact I|].
    destruct (find_ok (fst w) _ q t p l a i' (dp_ix pl') Hq Hr (S (q_cap q)) (dp_ix pl) i) as (i'' & R & Hf); [lia|lia|lia|eauto|exact Hst|].
    assert (R2 : it_find N eqb i i' a (fst w) = Ok (i'', fst w)) by (unfold it_find; rewrite (bind_ok _ _ _ _ _ Hfuel), (bind_ok _ _ _ _ _ Hcopy); exact R).
    rewrite (bind_ok _ _ _ _ _ (get_var_ok _ _ _ Ei)), (bind_ok _ _ _ _ _ (get_var_ok _ _ _ Ei')), (bind_ok _ _ _ _ _ (on_deqs_id _ _ _ R2)).
    destruct (first_at eqb a _) as [n|]; [|subst i'']; apply Hset; [|exact Hp']. eapply place_make; try eassumption. apply Hf.
  - (* for_each *)
    destruct (Hbetween b e) as [Hg|(pl & pl' & l & q & t & p & i & i' & El & Hq & Hr & Ei & Ei' & Hle & Hp' & Hst' & Hst & Hfuel & Hcopy & Hcap & Hg)]; rewrite Hg; [exact I|].
    assert (R : it_each N i i' (fst w) = Ok (take (dp_ix pl' - dp_ix pl) (drop (dp_ix pl) l), fst w)).
    { unfold it_each. rewrite (bind_ok _ _ _ _ _ Hfuel), (bind_ok _ _ _ _ _ Hcopy). apply (each_ok (fst w) _ q t p l i' (dp_ix pl') Hq Hr (S (q_cap q)) (dp_ix pl) i []); [lia|lia|lia|eauto|exact Hst]. }
    rewrite (bind_ok _ _ _ _ _ (get_var_ok _ _ _ Ei)), (bind_ok _ _ _ _ _ (get_var_ok _ _ _ Ei')), (bind_ok _ _ _ _ _ (on_deqs_id _ _ _ R)). exists w. split; [reflexivity|exact Hj].
Qed.

Lemma jinv0 : jinv jspec0 jworld0.
Proof. split; [apply winv_empty|]. intros k pl Hk. discriminate Hk. Qed.
Theorem j_history (ops : list (jop A)) : match srun (js_step eqb) ops jspec0 with
  | SVal (rs, s) => exists w, mrun (j_step N eqb) ops jworld0 = Ok (rs, w)
  | SAbort => mrun (j_step N eqb) ops jworld0 = Abort
  | SUnspec => True
  end.
Proof.
  pose proof (mrun_agree (j_step N eqb) (js_step eqb) jinv j_step_ok ops jspec0 jworld0 jinv0) as H.
  destruct (srun (js_step eqb) ops jspec0) as [[rs s]| |]; [|exact H|exact I]. destruct H as (w & R & _). eauto.
Qed.

(** Pushes leave an iterator at its element. *)
Definition is_push (id : nat) (o : dop A) : Prop := exists x, o = DPush id x \/ o = DPushBack id x \/ o = DPushFront id x.
Lemma pushes_keep id : forall (ops : list (dop A)), Forall (is_push id) ops -> forall (s : jspec A) k pl (l : list A) (r : bool) x,
  j_its s !! k = Some pl -> dp_id pl = id -> j_dqs s !! id = Some (l, r) -> l !! dp_ix pl = Some x ->
  exists s', srun (js_step eqb) ((JDeq <$> ops) ++ [JRead k]) s = SVal (replicate (length ops) RUnit ++ [RVal x], s').
Proof.
  induction ops as [|o ops IH]; intros Ho s k pl l r x Ek Eid El Ex.
  - exists s. cbn. unfold with_pl. rewrite Ek, Eid, El, Ex. reflexivity.
  - apply Forall_cons in Ho as [(y & Ho) Hops]. apply lookup_lt_Some in Ex as Hlt.
    assert (HX : exists s' pl' l', js_step eqb (JDeq o) s = SVal (RUnit, s') /\ j_its s' !! k = Some pl' /\ dp_id pl' = id /\ j_dqs s' !! id = Some (l', true) /\ l' !! dp_ix pl' = Some x).
    { destruct Ho as [-> |[-> | ->]]; cbn [js_step ds_step]; unfold with_dq; rewrite El; do 3 eexists; (split; [reflexivity|]); cbn [j_its j_dqs]; rewrite lookup_omap, Ek; cbn [mbind option_bind after];
        unfold len_of; rewrite Eid, Nat.eqb_refl, El, (proj2 (Nat.ltb_lt _ _) Hlt), lookup_insert; cbn [dp_id dp_ix]; (split; [reflexivity|]); (split; [reflexivity|]); (split; [reflexivity|]).
      - rewrite lookup_app_l by exact Hlt. exact Ex.
      - rewrite lookup_app_l by exact Hlt. exact Ex.
      - exact Ex. }
    destruct HX as (s' & pl' & l' & E1 & Ek' & Eid' & El' & Ex').
    change ((JDeq <$> o :: ops) ++ [JRead k]) with (JDeq o :: (JDeq <$> ops) ++ [JRead k]). cbn [srun]. destruct (IH Hops s' k pl' l' true x Ek' Eid' El' Ex') as (s2 & E2). rewrite E1, E2.
    exists s2. reflexivity.
Qed.
Theorem pushes_keep_run (ops : list (jop A)) rs (s : jspec A) k id n (mv : bool) (l : list A) (r : bool) x (pushes : list (dop A)) :
  srun (js_step eqb) ops jspec0 = SVal (rs, s) -> j_its s !! k = Some (DP id n mv) -> j_dqs s !! id = Some (l, r) -> l !! n = Some x ->
  Forall (fun o => exists x, o = DPush id x \/ o = DPushBack id x \/ o = DPushFront id x) pushes ->
  exists w, mrun (j_step N eqb) (ops ++ (JDeq <$> pushes) ++ [JRead k]) jworld0 = Ok (rs ++ replicate (length pushes) RUnit ++ [RVal x], w).
Proof.
  intros H Ek El Ex Hp. pose proof (j_history (ops ++ (JDeq <$> pushes) ++ [JRead k])) as Hh. rewrite srun_app, H in Hh.
  destruct (pushes_keep id pushes Hp s k (DP id n mv) l r x Ek eq_refl El Ex) as (s2 & E2). rewrite E2 in Hh. exact Hh.
Qed.
End Iter.
