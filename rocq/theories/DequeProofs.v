(** Positions, blocks and iterators of a deque. *)
From Verif Require Import Base VectorModel VectorSpec ListModel DequeModel DequeSpec.

Section Proofs.
Context {A : Type} (N : nat) (HN : 0 < N).
Implicit Types (st : dst A) (l : list A) (q : dq) (t : list nat) (i : diter).

(** The cell at position k of a deque whose content l starts at position p. *)
Definition cellval (p : nat) l (k : nat) : option A := if k <? p then None else l !! (k - p).
Definition blockat (p : nat) l (j : nat) : list (option A) := cellval p l <$> seq (j * N) N.
Lemma blockat_length p l j : length (blockat p l j) = N.
Proof. unfold blockat. rewrite fmap_length, seq_length. reflexivity. Qed.
Lemma blockat_lookup p l j o : o < N -> blockat p l j !! o = Some (cellval p l (j * N + o)).
Proof. intros H. unfold blockat. rewrite list_lookup_fmap, lookup_seq_lt by exact H. reflexivity. Qed.
Lemma blockat_ext p l p' l' j j' : (forall o, o < N -> cellval p' l' (j' * N + o) = cellval p l (j * N + o)) -> blockat p' l' j' = blockat p l j.
Proof.
  intros H. apply list_eq. intros o. destruct (decide (o < N)) as [Ho|Ho].
  - rewrite !blockat_lookup by exact Ho. f_equal. apply H, Ho.
  - rewrite !lookup_ge_None_2; [reflexivity| |]; rewrite blockat_length; lia.
Qed.
Lemma blockat_insert p l p' l' j o v : o < N -> cellval p' l' (j * N + o) = v ->
  (forall k, k <> j * N + o -> cellval p' l' k = cellval p l k) ->
  blockat p' l' j = <[o := v]> (blockat p l j).
Proof.
  intros Ho Hv H. apply list_eq. intros o'. destruct (decide (o' < N)) as [Ho'|Ho'].
  - rewrite blockat_lookup by exact Ho'. destruct (decide (o' = o)) as [->|Hne].
    + rewrite list_lookup_insert by (rewrite blockat_length; exact Ho). congruence.
    + rewrite list_lookup_insert_ne, blockat_lookup by (exact Ho' || congruence). f_equal. apply H. lia.
  - rewrite !lookup_ge_None_2; [reflexivity| |]; rewrite ?insert_length, blockat_length; lia.
Qed.
Lemma pos_unique j o j' o' : o < N -> o' < N -> j * N + o = j' * N + o' -> j = j' /\ o = o'.
Proof.
  intros H H' E. assert (j = j') as ->; [|lia].
  destruct (Nat.lt_trichotomy j j') as [Hl|[Hl|Hl]]; [|exact Hl|]; exfalso; [assert (S j * N <= j' * N) by (apply Nat.mul_le_mono_r; lia)|assert (S j' * N <= j * N) by (apply Nat.mul_le_mono_r; lia)]; simpl in *; lia.
Qed.
Lemma cellval_in p l k : p <= k -> cellval p l k = l !! (k - p).
Proof. intros H. unfold cellval. rewrite (proj2 (Nat.ltb_ge k p)) by exact H. reflexivity. Qed.
Lemma cellval_out p l k : k < p \/ p + length l <= k -> cellval p l k = None.
Proof. intros H. unfold cellval. destruct (Nat.ltb_spec k p); [reflexivity|]. apply lookup_ge_None_2. lia. Qed.

Lemma blank_all (c : list (option A)) : (forall o x, c !! o = Some x -> x = None) -> blank c = true.
Proof. induction c as [|x c IH]; intros H; [reflexivity|]. simpl. rewrite (H 0 x eq_refl). apply IH. intros o y Hy. apply (H (S o) y Hy). Qed.
Lemma blank_blockat p l j : (forall o, o < N -> j * N + o < p \/ p + length l <= j * N + o) -> blank (blockat p l j) = true.
Proof.
  intros H. apply blank_all. intros o x Hx. pose proof (lookup_lt_Some _ _ _ Hx) as Ho. rewrite blockat_length in Ho. rewrite blockat_lookup in Hx by exact Ho.
  injection Hx as <-. apply cellval_out, H, Ho.
Qed.

(** Iterator i of the deque with map table t stands at position p. *)
Definition at_pos (id : nat) t (p : nat) i : Prop := exists b o,
  t !! i_map i = Some b /\ i_cur i = PAt b o /\ i_tab i = Some id /\ p = i_map i * N + o /\
  (o < N \/ (o = N /\ S (i_map i) = length t)).

Lemma at_pos_le id t p i : at_pos id t p i -> p <= length t * N.
Proof.
  intros (b & o & Ht & _ & _ & -> & Ho). apply lookup_lt_Some in Ht.
  assert (S (i_map i) * N <= length t * N) by (apply Nat.mul_le_mono_r; lia). simpl in *. lia.
Qed.
Lemma at_pos_inside id t p i : at_pos id t p i -> p < length t * N ->
  exists b o, t !! i_map i = Some b /\ i_cur i = PAt b o /\ i_tab i = Some id /\ p = i_map i * N + o /\ o < N.
Proof.
  intros (b & o & Ht & Hc & Htab & -> & Ho) Hp. exists b, o. repeat split; try assumption.
  destruct Ho as [Ho|[-> Hl]]; [exact Ho|]. rewrite <- Hl in Hp. simpl in Hp. lia.
Qed.
Lemma at_pos_map id t p i : at_pos id t p i -> p < length t * N -> i_map i = p / N.
Proof.
  intros H Hp. destruct (at_pos_inside _ _ _ _ H Hp) as (b & o & _ & _ & _ & -> & Ho).
  rewrite Nat.add_comm, Nat.div_add, Nat.div_small by lia. reflexivity.
Qed.
Lemma at_pos_unique id id' t p i i' : at_pos id t p i -> at_pos id' t p i' -> i_cur i = i_cur i' /\ i_map i = i_map i'.
Proof.
  intros (b & o & Ht & Hc & Htab & E & Ho) (b' & o' & Ht' & Hc' & Htab' & E' & Ho').
  assert (Hm : i_map i = i_map i' /\ o = o').
  { destruct Ho as [Ho|[-> Hl]], Ho' as [Ho'|[-> Hl']].
    - apply pos_unique; lia.
    - exfalso. apply lookup_lt_Some in Ht. assert (S (i_map i) * N <= S (i_map i') * N) by (apply Nat.mul_le_mono_r; lia). simpl in *. lia.
    - exfalso. apply lookup_lt_Some in Ht'. assert (S (i_map i') * N <= S (i_map i) * N) by (apply Nat.mul_le_mono_r; lia). simpl in *. lia.
    - split; lia. }
  destruct Hm as [Hm ->]. split; [|exact Hm]. rewrite Hm in Ht. congruence.
Qed.
Lemma at_pos_eqp id id' t p p' i i' : NoDup t -> at_pos id t p i -> at_pos id' t p' i' -> eqp (i_cur i) (i_cur i') = (p =? p').
Proof.
  intros Hnd H H'. unfold eqp. destruct (Nat.eqb_spec p p') as [->|Hne].
  - rewrite bool_decide_eq_true. apply (at_pos_unique _ _ _ _ _ _ H H').
  - rewrite bool_decide_eq_false. intros E. apply Hne. destruct H as (b & o & Ht & Hc & _ & -> & _), H' as (b' & o' & Ht' & Hc' & _ & -> & _).
    rewrite Hc, Hc' in E. injection E as -> ->. rewrite (NoDup_lookup _ _ _ _ Hnd Ht Ht'). reflexivity.
Qed.

Definition tabof t : list (option nat) := Some <$> t.
Lemma tabof_lookup t j : tabof t !! j = Some <$> (t !! j).
Proof. apply list_lookup_fmap. Qed.
Lemma tabof_length t : length (tabof t) = length t.
Proof. apply fmap_length. Qed.
Lemma tabof_elem t b : Some b ∈ tabof t <-> b ∈ t.
Proof. unfold tabof. rewrite elem_of_list_fmap. split; [intros (b' & [= ->] & H); exact H|eauto]. Qed.

Lemma tab_at_ok T st j p : T !! j = Some p -> tab_at T j st = Ok (p, st).
Proof. intros H. unfold tab_at. rewrite H. reflexivity. Qed.
Lemma q_get_ok st id q : d_obj st !! id = Some q -> q_get id st = Ok (q, st).
Proof. intros H. unfold q_get. rewrite H. reflexivity. Qed.
Lemma q_put_ok st id q q' : d_obj st !! id = Some q -> q_put id q' st = Ok (tt, DSt (d_blk st) (d_fresh st) (d_cnt st) (<[id := q']> (d_obj st))).
Proof. intros H. unfold q_put. rewrite H. reflexivity. Qed.
Lemma it_tab_ok st id i q : i_tab i = Some id -> d_obj st !! id = Some q -> it_tab i st = Ok (q_tab q, st).
Proof. intros H Hq. unfold it_tab. rewrite H. rewrite (bind_ok _ _ _ _ _ (q_get_ok _ _ _ Hq)). reflexivity. Qed.

Lemma it_next_ok st id q t p i : d_obj st !! id = Some q -> q_tab q = tabof t -> NoDup t -> at_pos id t p i -> p < length t * N ->
  exists i', it_next N i st = Ok (i', st) /\ at_pos id t (S p) i'.
Proof.
  intros Hq Et Hnd H Hp. destruct (at_pos_inside _ _ _ _ H Hp) as (b & o & Ht & Hc & Htab & -> & Ho).
  unfold it_next. rewrite Hc. cbn [cur_next]. rewrite bind_ret. rewrite (bind_ok _ _ _ _ _ (it_tab_ok _ _ _ _ Htab Hq)). rewrite Et.
  rewrite (bind_ok _ _ _ _ _ (tab_at_ok _ _ _ (Some b) ltac:(rewrite tabof_lookup, Ht; reflexivity))). cbn [arr_end]. rewrite bind_ret.
  unfold eqp. destruct (decide (S o = N)) as [E|E].
  - rewrite bool_decide_eq_true_2 by congruence. rewrite tabof_length. destruct (Nat.ltb_spec (i_map i + 1) (length t)) as [Hl|Hl].
    + destruct (lookup_lt_is_Some_2 t (S (i_map i))) as [b' Hb']; [lia|].
      rewrite (bind_ok _ _ _ _ _ (tab_at_ok _ _ _ (Some b') ltac:(rewrite tabof_lookup, Hb'; reflexivity))). cbn [arr_begin]. rewrite bind_ret.
      eexists. split; [reflexivity|]. exists b', 0. cbn [i_map i_cur i_tab]. repeat split; try assumption; simpl; lia.
    + eexists. split; [reflexivity|]. exists b, (S o). cbn [i_map i_cur i_tab]. apply lookup_lt_Some in Ht as Hlt. repeat split; try assumption; lia.
  - rewrite bool_decide_eq_false_2 by congruence. eexists. split; [reflexivity|]. exists b, (S o). cbn [i_map i_cur i_tab]. repeat split; try assumption; lia.
Qed.

Lemma it_prev_ok st id q t p i : d_obj st !! id = Some q -> q_tab q = tabof t -> NoDup t -> at_pos id t (S p) i ->
  exists i', it_prev N i st = Ok (i', st) /\ at_pos id t p i'.
Proof.
  intros Hq Et Hnd (b & o & Ht & Hc & Htab & Ep & Ho).
  unfold it_prev. rewrite Hc. cbn [rd]. rewrite bind_ret. rewrite (bind_ok _ _ _ _ _ (it_tab_ok _ _ _ _ Htab Hq)). rewrite Et.
  rewrite (bind_ok _ _ _ _ _ (tab_at_ok _ _ _ (Some b) ltac:(rewrite tabof_lookup, Ht; reflexivity))). cbn [arr_begin]. rewrite bind_ret.
  unfold eqp. destruct o as [|o].
  - rewrite bool_decide_eq_true_2 by reflexivity. destruct (i_map i) as [|m] eqn:Em; [simpl in Ep; lia|].
    destruct (lookup_lt_is_Some_2 t m) as [b' Hb']; [apply lookup_lt_Some in Ht; lia|].
    rewrite (bind_ok _ _ _ _ _ (tab_at_ok _ _ _ (Some b') ltac:(rewrite tabof_lookup, Hb'; reflexivity))). cbn [arr_end]. rewrite bind_ret.
    destruct N as [|n] eqn:EN; [lia|]. cbn [cur_prev]. rewrite bind_ret. eexists. split; [reflexivity|]. exists b', n. rewrite EN. cbn [i_map i_cur i_tab]. repeat split; try assumption; simpl in *; lia.
  - rewrite bool_decide_eq_false_2 by congruence. cbn [cur_prev]. rewrite bind_ret. eexists. split; [reflexivity|]. exists b, o. cbn [i_map i_cur i_tab]. repeat split; try assumption; lia.
Qed.

Lemma it_add_ok st id q t n : d_obj st !! id = Some q -> q_tab q = tabof t -> NoDup t -> forall p i, at_pos id t p i -> p + n <= length t * N ->
  exists i', it_add N n i st = Ok (i', st) /\ at_pos id t (p + n) i'.
Proof.
  intros Hq Et Hnd. induction n as [|n IH]; intros p i H Hp; simpl.
  - exists i. rewrite Nat.add_0_r. auto.
  - destruct (it_next_ok _ _ _ _ _ _ Hq Et Hnd H) as (i1 & R & H1); [lia|]. rewrite (bind_ok _ _ _ _ _ R).
    destruct (IH _ _ H1) as (i2 & R2 & H2); [lia|]. exists i2. split; [exact R2|]. replace (p + S n) with (S p + n) by lia. exact H2.
Qed.
Lemma it_sub_ok st id q t n : d_obj st !! id = Some q -> q_tab q = tabof t -> NoDup t -> forall p i, at_pos id t (p + n) i ->
  exists i', it_sub N n i st = Ok (i', st) /\ at_pos id t p i'.
Proof.
  intros Hq Et Hnd. induction n as [|n IH]; intros p i H; simpl.
  - exists i. rewrite Nat.add_0_r in H. auto.
  - replace (p + S n) with (S (p + n)) in H by lia. destruct (it_prev_ok _ _ _ _ _ _ Hq Et Hnd H) as (i1 & R & H1). rewrite (bind_ok _ _ _ _ _ R).
    apply (IH _ _ H1).
Qed.

(** The blocks in table t hold content l from position p on. *)
Definition holds (H : gmap nat (list (option A))) t p l : Prop := forall j b, t !! j = Some b -> H !! b = Some (blockat p l j).

Lemma cell_ld_ok st id t p k l i x : holds (d_blk st) t p l -> at_pos id t (p + k) i -> l !! k = Some x -> p + length l <= length t * N ->
  cell_ld (i_cur i) st = Ok (x, st).
Proof.
  intros H Hi Hx Hp. apply lookup_lt_Some in Hx as Hk. destruct (at_pos_inside _ _ _ _ Hi) as (b & o & Ht & Hc & _ & E & Ho); [lia|].
  unfold cell_ld. rewrite Hc, (H _ _ Ht), blockat_lookup, <- E, cellval_in by lia. replace (p + k - p) with k by lia. rewrite Hx. reflexivity.
Qed.

Lemma cell_st_ok f st id t p l p' l' k i v : holds (d_blk st) t p l -> NoDup t -> at_pos id t k i -> k < length t * N ->
  cellval p' l' k = v -> (forall k', k' <> k -> cellval p' l' k' = cellval p l k') ->
  exists H', cell_st f (i_cur i) v st = Ok (tt, DSt H' (d_fresh st) (f (d_cnt st)) (d_obj st)) /\ holds H' t p' l' /\
    (forall b, b ∉ t -> H' !! b = d_blk st !! b) /\ (forall b, is_Some (H' !! b) -> is_Some (d_blk st !! b)).
Proof.
  intros H Hnd Hi Hk Hv Hother. destruct (at_pos_inside _ _ _ _ Hi Hk) as (b & o & Ht & Hc & _ & -> & Ho).
  unfold cell_st. rewrite Hc, (H _ _ Ht), blockat_length, (proj2 (Nat.ltb_lt o N)) by exact Ho.
  eexists. split; [reflexivity|]. split; [|split].
  - intros j b' Hb'. destruct (decide (b' = b)) as [->|Hne].
    + rewrite lookup_insert. rewrite (NoDup_lookup _ _ _ _ Hnd Hb' Ht). f_equal. symmetry. apply blockat_insert; [exact Ho|exact Hv|exact Hother].
    + rewrite lookup_insert_ne by congruence. rewrite (H _ _ Hb'). f_equal. apply blockat_ext. intros o' Ho'. symmetry. apply Hother.
      intros E. apply pos_unique in E as [-> _]; [|exact Ho'|exact Ho]. congruence.
  - intros b' Hb'. rewrite lookup_insert_ne; [reflexivity|]. intros ->. apply Hb'. eapply elem_of_list_lookup_2. exact Ht.
  - intros b' Hb'. destruct (decide (b' = b)) as [->|Hne]; [rewrite (H _ _ Ht); eauto|]. rewrite lookup_insert_ne in Hb' by congruence. exact Hb'.
Qed.
Lemma cell_construct_ok st id t p l p' l' k i a : holds (d_blk st) t p l -> NoDup t -> at_pos id t k i -> k < length t * N ->
  cellval p l k = None -> cellval p' l' k = Some a -> (forall k', k' <> k -> cellval p' l' k' = cellval p l k') ->
  exists H', cell_construct (i_cur i) a st = Ok (tt, DSt H' (d_fresh st) (tal_in (d_cnt st)) (d_obj st)) /\ holds H' t p' l' /\
    (forall b, b ∉ t -> H' !! b = d_blk st !! b) /\ (forall b, is_Some (H' !! b) -> is_Some (d_blk st !! b)).
Proof.
  intros H Hnd Hi Hk Hn Hv Hother. destruct (cell_st_ok tal_in _ _ _ _ _ _ _ _ _ _ H Hnd Hi Hk Hv Hother) as (H' & R & Hrest).
  exists H'. split; [|exact Hrest]. destruct (at_pos_inside _ _ _ _ Hi Hk) as (b & o & Ht & Hc & _ & E & Ho).
  unfold cell_construct. rewrite Hc, (H _ _ Ht), blockat_lookup, <- E, Hn by exact Ho. rewrite <- Hc. exact R.
Qed.
Lemma cell_destroy_ok st id t p l p' l' k i a : holds (d_blk st) t p l -> NoDup t -> at_pos id t k i -> k < length t * N ->
  cellval p l k = Some a -> cellval p' l' k = None -> (forall k', k' <> k -> cellval p' l' k' = cellval p l k') ->
  exists H', cell_destroy (i_cur i) st = Ok (tt, DSt H' (d_fresh st) (tal_out (d_cnt st)) (d_obj st)) /\ holds H' t p' l' /\
    (forall b, b ∉ t -> H' !! b = d_blk st !! b) /\ (forall b, is_Some (H' !! b) -> is_Some (d_blk st !! b)).
Proof.
  intros H Hnd Hi Hk Hn Hv Hother. destruct (cell_st_ok tal_out _ _ _ _ _ _ _ _ _ _ H Hnd Hi Hk Hv Hother) as (H' & R & Hrest).
  exists H'. split; [|exact Hrest]. destruct (at_pos_inside _ _ _ _ Hi Hk) as (b & o & Ht & Hc & _ & E & Ho).
  unfold cell_destroy. rewrite Hc. rewrite <- Hc.
  rewrite (bind_ok _ _ st a st); [exact R|]. unfold cell_ld. rewrite Hc, (H _ _ Ht), blockat_lookup, <- E, Hn by exact Ho. reflexivity.
Qed.
End Proofs.
