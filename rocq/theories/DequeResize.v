(** Growing the map table of a deque. *)
From Verif Require Import Base VectorModel VectorSpec ListModel DequeModel DequeSpec DequeProofs.

Section Resize.
Context {A : Type} (N : nat) (HN : 0 < N).
Implicit Types (st : dst A) (l : list A) (q : dq) (t : list nat) (i : diter).
Notation heap := (gmap nat (list (option A))).

Definition keys_below (H : heap) (f : nat) : Prop := forall b, is_Some (H !! b) -> b < f.
(** How a call on one deque may change the heap: t / t' are its blocks before and after. *)
Definition own_step (H H' : heap) t t' : Prop :=
  (forall b, b ∉ t -> b ∉ t' -> H' !! b = H !! b) /\ (forall b, b ∈ t -> b ∉ t' -> H' !! b = None) /\ (forall b, b ∈ t' -> b ∉ t -> H !! b = None).

Section Build.
Context (st : dst A) (id sz cap : nat) (bi ei : diter) (t : list nat) (ns os num nts : nat).
Let ne := ns + num.
Let f0 := d_fresh st.
Let kept (j : nat) : Prop := ns <= j <= ne.
Definition build_inv (k : nat) st' (t' : list nat) : Prop :=
  length t' = k /\ (exists X, length X = nts - k /\ d_obj st' = <[id := DQ sz cap (tabof t' ++ X) bi ei]> (d_obj st)) /\
  NoDup t' /\
  (forall j b, t' !! j = Some b -> (kept j -> t !! (os + (j - ns)) = Some b) /\
     (~ kept j -> f0 <= b /\ b < d_fresh st' /\ d_blk st' !! b = Some (replicate N None))) /\
  (forall b, b < f0 -> d_blk st' !! b = d_blk st !! b) /\
  (forall b, f0 <= b -> is_Some (d_blk st' !! b) -> b ∈ t') /\
  f0 <= d_fresh st' /\ keys_below (d_blk st') (d_fresh st').

Context (Hkeys : keys_below (d_blk st) (d_fresh st)) (Hlive : forall b, b ∈ t -> is_Some (d_blk st !! b)) (Hnd : NoDup t) (Hos : os + num < length t).

Lemma build_step k st' t' : build_inv k st' t' -> k < nts ->
  exists st2 t2, resize_build N id ns ne os (tabof t) k st' = Ok (tt, st2) /\ build_inv (S k) st2 t2.
Proof.
  intros (Hlen & (X & HX & Hobj) & Hndt & Hent & Hold & Hnew & Hf & Hk) Hlt.
  assert (Hid : d_obj st' !! id = Some (DQ sz cap (tabof t' ++ X) bi ei)) by (rewrite Hobj; apply lookup_insert).
  destruct X as [|x X]; [simpl in HX; lia|].
  assert (Hslot : (tabof t' ++ x :: X) !! k = Some x).
  { rewrite lookup_app_r by (rewrite tabof_length; lia). rewrite tabof_length, Hlen, Nat.sub_diag. reflexivity. }
  assert (Hset : forall b, <[k := Some b]> (tabof t' ++ x :: X) = tabof (t' ++ [b]) ++ X).
  { intros b. rewrite insert_app_r_alt by (rewrite tabof_length; lia). rewrite tabof_length, Hlen, Nat.sub_diag. simpl.
    unfold tabof. rewrite fmap_app, <- app_assoc. reflexivity. }
  unfold resize_build.
  assert (Hcase : ((k <? ns) || (ne <? k) = true /\ ~ kept k) \/ ((k <? ns) || (ne <? k) = false /\ kept k)).
  { unfold kept. destruct (Nat.ltb_spec k ns), (Nat.ltb_spec ne k); simpl; [left|left|left|right]; split; try reflexivity; lia. }
  destruct Hcase as [[-> Hkk]|[-> Hkk]].
  - rewrite bind_assoc. rewrite (bind_ok _ _ st' (d_fresh st') (DSt (<[d_fresh st' := replicate N None]> (d_blk st')) (S (d_fresh st')) (tal_block N (d_cnt st')) (d_obj st'))) by reflexivity.
    rewrite bind_ret.
    erewrite bind_ok by (eapply q_get_ok; exact Hid). cbn [q_tab q_size q_cap q_beg q_end]. rewrite (bind_ok _ _ _ _ _ (tab_at_ok _ _ _ _ Hslot)).
    erewrite q_put_ok by exact Hid. cbn [d_blk d_fresh d_obj]. rewrite Hset, Hobj, insert_insert.
    exists (DSt (<[d_fresh st' := replicate N None]> (d_blk st')) (S (d_fresh st')) (tal_block N (d_cnt st')) (<[id := DQ sz cap (tabof (t' ++ [d_fresh st']) ++ X) bi ei]> (d_obj st))), (t' ++ [d_fresh st']). split; [reflexivity|].
    assert (Hfresh : forall j b, t' !! j = Some b -> b < d_fresh st').
    { intros j b Hb. destruct (Hent _ _ Hb) as [H1 H2]. destruct (decide (kept j)) as [Hj|Hj]; [|apply (H2 Hj)].
      apply (Nat.lt_le_trans _ f0); [|exact Hf]. apply Hkeys, Hlive. apply elem_of_list_lookup. eauto. }
    split; [rewrite app_length; simpl; lia|]. split; [exists X; simpl in HX; split; [lia|reflexivity]|].
    split; [apply NoDup_app; split; [exact Hndt|split; [|apply NoDup_singleton]]; intros b Hb ->%elem_of_list_singleton; apply elem_of_list_lookup in Hb as [j Hb]; apply Hfresh in Hb; lia|].
    cbn [d_blk d_fresh]. split; [|split; [|split; [|split]]].
    + intros j b Hb. apply lookup_app_Some in Hb as [Hb|[Hj Hb]].
      * destruct (Hent _ _ Hb) as [H1 H2]. split; [exact H1|]. intros Hj. destruct (H2 Hj) as (E1 & E2 & E3). split; [exact E1|]. split; [lia|]. rewrite lookup_insert_ne by lia. exact E3.
      * rewrite Hlen in Hj, Hb. apply list_lookup_singleton_Some in Hb as [Hb <-]. assert (j = k) as -> by lia. split; [intros; contradiction|]. intros _.
        split; [exact Hf|]. split; [lia|]. apply lookup_insert.
    + intros b Hb. rewrite lookup_insert_ne by lia. apply Hold, Hb.
    + intros b Hb Hs. rewrite elem_of_app, elem_of_list_singleton. destruct (decide (b = d_fresh st')) as [->|Hne]; [right; reflexivity|].
      left. rewrite lookup_insert_ne in Hs by congruence. apply Hnew; assumption.
    + lia.
    + intros b Hs. destruct (decide (b = d_fresh st')) as [->|Hne]; [lia|]. rewrite lookup_insert_ne in Hs by congruence. apply Hk in Hs. lia.
  - unfold kept, ne in Hkk. destruct (lookup_lt_is_Some_2 t (os + (k - ns))) as [b Hb]; [lia|].
    rewrite (bind_ok _ _ _ _ _ (tab_at_ok _ _ _ (Some b) ltac:(rewrite tabof_lookup, Hb; reflexivity))).
    rewrite (bind_ok _ _ _ _ _ (q_get_ok _ _ _ Hid)). cbn [q_tab q_size q_cap q_beg q_end]. rewrite (bind_ok _ _ _ _ _ (tab_at_ok _ _ _ _ Hslot)).
    rewrite (q_put_ok _ _ _ _ Hid). rewrite Hset, Hobj, insert_insert.
    assert (Hbf : b < f0) by (apply Hkeys, Hlive; eapply elem_of_list_lookup_2; exact Hb).
    exists (DSt (d_blk st') (d_fresh st') (d_cnt st') (<[id := DQ sz cap (tabof (t' ++ [b]) ++ X) bi ei]> (d_obj st))), (t' ++ [b]). split; [reflexivity|].
    split; [rewrite app_length; simpl; lia|]. split; [exists X; simpl in HX; split; [lia|reflexivity]|].
    split; [apply NoDup_app; split; [exact Hndt|split; [|apply NoDup_singleton]]|].
    { intros b' Hb' ->%elem_of_list_singleton. apply elem_of_list_lookup in Hb' as [j Hj]. destruct (Hent _ _ Hj) as [H1 H2].
      destruct (decide (kept j)) as [Hkj|Hkj]; [|destruct (H2 Hkj); lia]. specialize (H1 Hkj). pose proof (NoDup_lookup _ _ _ _ Hnd H1 Hb).
      apply lookup_lt_Some in Hj. unfold kept in Hkj. lia. }
    cbn [d_blk d_fresh]. split; [|split; [|split; [|split]]]; [|exact Hold| |exact Hf|exact Hk].
    + intros j b' Hb'. apply lookup_app_Some in Hb' as [Hb'|[Hj Hb']]; [apply Hent; exact Hb'|].
      rewrite Hlen in Hj, Hb'. apply list_lookup_singleton_Some in Hb' as [Hb' <-]. assert (j = k) as -> by lia. split; [intros _; exact Hb|]. unfold kept, ne. intros; lia.
    + intros b' Hb' Hs. apply elem_of_app. left. apply Hnew; assumption.
Qed.

Lemma build_loop k : forall start st' t', start + k = nts -> build_inv start st' t' ->
  exists st2 t2, for_range start k (resize_build N id ns ne os (tabof t)) st' = Ok (tt, st2) /\ build_inv nts st2 t2.
Proof.
  induction k as [|k IH]; intros start st' t' Hs Hi; simpl.
  - exists st', t'. split; [reflexivity|]. rewrite <- Hs, Nat.add_0_r. exact Hi.
  - destruct (build_step _ _ _ Hi) as (st1 & t1 & R & H1); [lia|]. rewrite (bind_ok _ _ _ _ _ R). apply (IH (S start) st1 t1); [lia|exact H1].
Qed.
End Build.

Section Free.
Context (t : list nat) (os oe : nat) (Hnd : NoDup t).
Lemma free_loop k : forall start st, start + k = length t ->
  (forall j b, t !! j = Some b -> start <= j -> j < os \/ oe < j -> exists c, d_blk st !! b = Some c /\ blank c = true) ->
  exists H', for_range start k (resize_free os oe (tabof t)) st = Ok (tt, DSt H' (d_fresh st) (d_cnt st) (d_obj st)) /\
    (forall j b, t !! j = Some b -> start <= j -> j < os \/ oe < j -> H' !! b = None) /\
    (forall b, (forall j, t !! j = Some b -> start <= j -> j < os \/ oe < j -> False) -> H' !! b = d_blk st !! b).
Proof.
  induction k as [|k IH]; intros start st Hs Hl; simpl.
  - exists (d_blk st). split; [destruct st; reflexivity|]. split; [|auto]. intros j b Hb%lookup_lt_Some Hj. lia.
  - destruct (lookup_lt_is_Some_2 t start) as [b Hb]; [lia|].
    assert (Hcase : ((start <? os) || (oe <? start) = true /\ (start < os \/ oe < start)) \/ ((start <? os) || (oe <? start) = false /\ ~ (start < os \/ oe < start))).
    { destruct (Nat.ltb_spec start os), (Nat.ltb_spec oe start); simpl; [left|left|left|right]; split; try reflexivity; lia. }
    unfold resize_free at 1. destruct Hcase as [[-> Hc]|[-> Hc]].
    + rewrite bind_assoc. rewrite (bind_ok _ _ _ _ _ (tab_at_ok _ _ _ (Some b) ltac:(rewrite tabof_lookup, Hb; reflexivity))).
      destruct (Hl _ _ Hb (le_n _) Hc) as (c & Ec & Ebl).
      rewrite (bind_ok _ _ st tt (DSt (delete b (d_blk st)) (d_fresh st) (d_cnt st) (d_obj st))) by (unfold free_arr; rewrite Ec, Ebl; reflexivity).
      destruct (IH (S start) (DSt (delete b (d_blk st)) (d_fresh st) (d_cnt st) (d_obj st))) as (H' & R & F1 & F2); [lia| |].
      { intros j b' Hb' Hj Hc'. simpl. rewrite lookup_delete_ne; [apply (Hl _ _ Hb'); [lia|exact Hc']|]. intros ->. pose proof (NoDup_lookup _ _ _ _ Hnd Hb Hb'). lia. }
      exists H'. split; [exact R|]. simpl in F2. split.
      * intros j b' Hb' Hj Hc'. destruct (decide (j = start)) as [->|Hne]; [|apply (F1 j); [exact Hb'|lia|exact Hc']].
        rewrite Hb in Hb'. injection Hb' as <-. rewrite F2; [apply lookup_delete|]. intros j Hj' Hle _. pose proof (NoDup_lookup _ _ _ _ Hnd Hb Hj'). lia.
      * intros b' Hno. rewrite F2; [|intros j Hj' Hle Hc'; apply (Hno j Hj'); [lia|exact Hc']]. apply lookup_delete_ne. intros ->. apply (Hno start Hb); [lia|exact Hc].
    + rewrite bind_ret. destruct (IH (S start) st) as (H' & R & F1 & F2); [lia| |].
      { intros j b' Hb' Hj Hc'. apply (Hl _ _ Hb'); [lia|exact Hc']. }
      exists H'. split; [exact R|]. split.
      * intros j b' Hb' Hj Hc'. destruct (decide (j = start)) as [->|Hne]; [contradiction|]. apply (F1 j); [exact Hb'|lia|exact Hc'].
      * intros b' Hno. apply F2. intros j Hj' Hle Hc'. apply (Hno j Hj'); [lia|exact Hc'].
Qed.
End Free.

(** A deque with storage: its blocks are t and its content starts at position p. *)
Definition rdy_ok (H : heap) (id : nat) l q t (p : nat) : Prop :=
  q_tab q = tabof t /\ q_size q = length l /\ q_cap q = length t * N /\ NoDup t /\ 2 <= length t /\
  at_pos N id t p (q_beg q) /\ at_pos N id t (p + length l) (q_end q) /\ holds N H t p l.

Lemma rdy_frame H H' id l q t p : rdy_ok H id l q t p -> (forall b, b ∈ t -> H' !! b = H !! b) -> rdy_ok H' id l q t p.
Proof.
  intros (H1 & H2 & H3 & H4 & H5 & H6 & H7 & H8) Hb. repeat split; try assumption. intros j b Hj. rewrite Hb; [apply H8; exact Hj|]. eapply elem_of_list_lookup_2. exact Hj.
Qed.

(** Offset o of block b is position x of the table t. *)
Definition cell_at t (x b o : nat) : Prop := exists j, t !! j = Some b /\ o < N /\ x = j * N + o.
(** The n cells from position p of t on are those from position p' of t' on. *)
Definition kept t (p n : nat) t' (p' : nat) : Prop := forall k b o, k < n -> cell_at t (p + k) b o -> cell_at t' (p' + k) b o.
(** About a quarter of the table is free on either side. *)
Definition roomy t (p n : nat) : Prop := length t * N <= 4 * p + 4 * N /\ length t * N <= 4 * (length t * N - (p + n)) + 4 * N.
Lemma kept_refl t p n : kept t p n t p.
Proof. intros k b o _ H. exact H. Qed.

(** [tid]: the deque whose table the iterators point to (the deque itself, except
    after a move). *)
Lemma resize_gen st id tid l q t p : d_obj st !! id = Some q -> rdy_ok (d_blk st) tid l q t p -> keys_below (d_blk st) (d_fresh st) ->
  (p = 0 \/ p + length l = length t * N) ->
  exists st' q' t' p', dq_resize N id (q_cap q * 2) st = Ok (tt, st') /\ d_obj st' = <[id := q']> (d_obj st) /\
    rdy_ok (d_blk st') tid l q' t' p' /\ length t' = 2 * length t /\ own_step (d_blk st) (d_blk st') t t' /\ keys_below (d_blk st') (d_fresh st') /\
    0 < p' /\ p' + length l < length t' * N /\ kept t p (length l) t' p' /\ roomy t' p' (length l).
Proof.
  intros Hq (Et & Esz & Ecap & Hnd & HB & Hbeg & Hend & Hhold) Hkeys Hside.
  pose proof (at_pos_le N HN _ _ _ _ Hend) as Hle.
  destruct Hbeg as (bb & ob & Htb & Hcb & Htabb & Ep & Hob). destruct Hend as (be & oe & Hte & Hce & Htabe & Ee & Hoe).
  set (B := length t) in *. set (s := i_map (q_beg q)) in *. set (e := i_map (q_end q)) in *. set (L := length l) in *.
  assert (HsB : s < B) by (apply lookup_lt_Some in Htb; exact Htb). assert (HeB : e < B) by (apply lookup_lt_Some in Hte; exact Hte).
  assert (Hse : s <= e).
  { destruct (Nat.le_gt_cases s e) as [Hx|Hx]; [exact Hx|]. exfalso. assert (S e * N <= s * N) by (apply Nat.mul_le_mono_r; lia). simpl in *.
    destruct Hoe as [Hoe|[-> Hl]]; [lia|]. lia. }
  unfold dq_resize. rewrite (bind_ok _ _ _ _ _ (q_get_ok _ _ _ Hq)). fold s e. rewrite Esz, Ecap. fold L B.
  assert (Hext : (B * N <? B * N * 2) = true) by (apply Nat.ltb_lt; assert (2 * N <= B * N) by (apply Nat.mul_le_mono_r; lia); lia). rewrite Hext. cbn [negb andb].
  assert (Hnts : B * N * 2 / N = 2 * B) by (replace (B * N * 2) with (2 * B * N) by lia; apply Nat.div_mul; lia). rewrite Hnts.
  set (ns := (B * N * 2 - L) / 2 / N).
  (* arithmetic *)
  assert (Hns : 1 <= ns /\ S (ns + (e - s)) < 2 * B).
  { assert (Hd : ns = (B * N * 2 - L) / (2 * N)) by (unfold ns; rewrite Nat.div_div by lia; reflexivity).
    assert (Hlow : 1 <= ns).
    { rewrite Hd. apply Nat.div_le_lower_bound; [lia|]. assert (2 * N <= B * N) by (apply Nat.mul_le_mono_r; lia). lia. }
    split; [exact Hlow|].
    assert (Hup : ns * (2 * N) <= B * N * 2 - L) by (rewrite Hd, Nat.mul_comm; apply Nat.mul_div_le; lia).
    (* ns*2N <= 2BN - L, L = (e-s)N + oe - ob *)
    destruct Hob as [Hob|[-> Hlb]].
    - assert (Hk : (e - s) * N = e * N - s * N) by apply Nat.mul_sub_distr_r.
      assert (Hk2 : s * N <= e * N) by (apply Nat.mul_le_mono_r; lia).
      assert (HL : L + ob = (e - s) * N + oe) by lia.
      destruct Hside as [-> | Hfull].
      + assert (s = 0) by (destruct s; [reflexivity|simpl in Ep; lia]). assert (ob = 0) by (simpl in *; lia). subst ob. replace (e - s) with e in * by lia.
        assert (Hm : (2 * ns + e) * N <= 2 * B * N) by lia. assert (2 * ns + e <= 2 * B) by (apply (Nat.mul_le_mono_pos_r _ _ N); lia).
        destruct Hoe as [Hoe|[-> Hl]]; [lia|]. assert (Hm2 : (2 * ns + e + 1) * N <= 2 * B * N) by lia. assert (2 * ns + e + 1 <= 2 * B) by (apply (Nat.mul_le_mono_pos_r _ _ N); lia). lia.
      + assert (He : e = B - 1 /\ oe = N).
        { destruct Hoe as [Hoe|[-> Hl]]; [|split; lia]. exfalso. assert (S e * N <= B * N) by (apply Nat.mul_le_mono_r; lia). simpl in *. lia. }
        destruct He as [-> ->]. assert (Hm : (2 * ns + (B - 1 - s) + 1) * N < (2 * B + 1) * N) by lia.
        apply Nat.mul_lt_mono_pos_r in Hm; [|exact HN]. lia.
    - assert (s = B - 1) by lia. assert (e = s) by lia. assert (L = 0).
      { destruct Hoe as [Hoe|[-> Hl]]; lia. }
      assert (Hm : ns * 2 * N <= B * 2 * N) by lia. apply Nat.mul_le_mono_pos_r in Hm; [|exact HN]. lia. }
  destruct Hns as [Hns1 Hns2].
  rewrite (bind_ok _ _ _ _ _ (q_put_ok _ _ _ _ Hq)). set (T0 := take (2 * B) (q_tab q) ++ replicate (2 * B - length (q_tab q)) None).
  set (st1 := DSt (d_blk st) (d_fresh st) (d_cnt st) (<[id := DQ L (B * N) T0 (q_beg q) (q_end q)]> (d_obj st))).
  rewrite Et.
  assert (HT0 : length T0 = 2 * B).
  { unfold T0. rewrite app_length, take_length, replicate_length, Et, tabof_length. fold B. lia. }
  destruct (build_loop st id L (B * N) (q_beg q) (q_end q) t ns s (e - s) (2 * B)) with (k := 2 * B) (start := 0) (st' := st1) (t' := @nil nat) as (st2 & t' & R2 & HI).
  { exact Hkeys. } { intros b Hb. apply elem_of_list_lookup in Hb as [j Hj]. rewrite (Hhold _ _ Hj). eauto. } { exact Hnd. } { fold B. lia. } { lia. }
  { split; [reflexivity|]. split; [exists T0; split; [rewrite HT0; lia|reflexivity]|]. split; [apply NoDup_nil_2|]. split; [intros j b Hj; rewrite lookup_nil in Hj; discriminate|].
    split; [reflexivity|]. split; [|split; [reflexivity|exact Hkeys]]. intros b Hb Hs. apply Hkeys in Hs. simpl in *. lia. }
  rewrite (bind_ok _ _ _ _ _ R2). destruct HI as (Hlen & (X & HX & Hobj) & Hndt & Hent & Hold & Hnew & Hf & Hk2).
  rewrite Nat.sub_diag in HX. apply nil_length_inv in HX. subst X. rewrite app_nil_r in Hobj.
  rewrite tabof_length. fold B.
  assert (Hin : forall j b, t !! j = Some b -> b < d_fresh st /\ is_Some (d_blk st !! b)).
  { intros j b Hj. assert (is_Some (d_blk st !! b)) by (rewrite (Hhold _ _ Hj); eauto). split; [apply Hkeys; assumption|assumption]. }
  destruct (free_loop t s e Hnd B 0 st2) as (H3 & R3 & F1 & F2); [reflexivity| |].
  { intros j b Hj _ Hc. destruct (Hin _ _ Hj) as [Hlt _]. rewrite (Hold b Hlt). exists (blockat N (s * N + ob) l j). split; [rewrite (Hhold _ _ Hj), Ep; reflexivity|].
    apply (blank_blockat N HN). intros o Ho. fold L. destruct Hc as [Hc|Hc].
    - left. assert (S j * N <= s * N) by (apply Nat.mul_le_mono_r; lia). simpl in *. lia.
    - right. assert (S e * N <= j * N) by (apply Nat.mul_le_mono_r; lia). simpl in *. lia. }
  rewrite (bind_ok _ _ _ _ _ R3).
  assert (Hid3 : d_obj (DSt H3 (d_fresh st2) (d_cnt st2) (d_obj st2)) !! id = Some (DQ L (B * N) (tabof t') (q_beg q) (q_end q))) by (simpl; rewrite Hobj; apply lookup_insert).
  rewrite (bind_ok _ _ _ _ _ (q_get_ok _ _ _ Hid3)). cbn [q_size q_cap q_tab q_beg q_end].
  (* the new table *)
  assert (Hkept : forall k b, t !! k = Some b -> s <= k <= e -> t' !! (ns + (k - s)) = Some b).
  { intros k b Hk Hr. destruct (lookup_lt_is_Some_2 t' (ns + (k - s))) as [b' Hb']; [lia|]. rewrite Hb'. destruct (Hent _ _ Hb') as [E1 _].
    specialize (E1 ltac:(lia)). replace (s + (ns + (k - s) - ns)) with k in E1 by lia. congruence. }
  assert (Hte' : t' !! (ns + (e - s)) = Some be) by (apply Hkept; [exact Hte|lia]).
  assert (Htb' : t' !! ns = Some bb) by (specialize (Hkept s bb Htb ltac:(lia)); rewrite Nat.sub_diag, Nat.add_0_r in Hkept; exact Hkept).
  rewrite (bind_ok _ _ _ _ _ (tab_at_ok _ _ _ (Some be) ltac:(rewrite tabof_lookup, Hte'; reflexivity))). cbn [arr_end]. rewrite bind_ret.
  cbn [i_cur i_tab]. rewrite Hce. cbn [rd]. rewrite bind_ret.
  (* content of the blocks *)
  assert (Hhold' : holds N H3 t' (ns * N + ob) l).
  { intros j b Hj. destruct (Hent _ _ Hj) as [E1 E2]. destruct (decide (ns <= j <= ns + (e - s))) as [Hr|Hr].
    - specialize (E1 Hr). destruct (Hin _ _ E1) as [Hlt _]. rewrite F2, Hold, (Hhold _ _ E1).
      + f_equal. apply blockat_ext; [exact HN|]. intros o Ho. unfold cellval. rewrite Ep.
        assert (Hd : (s + (j - ns)) * N = s * N + (j * N - ns * N)) by (rewrite Nat.mul_add_distr_r, Nat.mul_sub_distr_r; reflexivity).
        assert (Hm : ns * N <= j * N) by (apply Nat.mul_le_mono_r; lia). rewrite Hd.
        destruct (Nat.ltb_spec (s * N + (j * N - ns * N) + o) (s * N + ob)), (Nat.ltb_spec (j * N + o) (ns * N + ob)); try lia; [reflexivity|]. f_equal. lia.
      + exact Hlt.
      + intros j' Hj' _ Hc. pose proof (NoDup_lookup _ _ _ _ Hnd E1 Hj'). lia.
    - destruct (E2 Hr) as (G1 & G2 & G3). rewrite F2, G3.
      + f_equal. apply list_eq. intros o. destruct (decide (o < N)) as [Ho|Ho].
        * rewrite lookup_replicate_2 by exact Ho. rewrite blockat_lookup by exact Ho. f_equal. symmetry. apply (cellval_out N HN). fold L.
          assert (j < ns \/ ns + (e - s) < j) as [Hj1|Hj1] by lia.
          -- left. assert (S j * N <= ns * N) by (apply Nat.mul_le_mono_r; lia). simpl in *. lia.
          -- right. assert (S (ns + (e - s)) * N <= j * N) by (apply Nat.mul_le_mono_r; lia). simpl in *. rewrite Nat.mul_add_distr_r, Nat.mul_sub_distr_r in *.
             assert (s * N <= e * N) by (apply Nat.mul_le_mono_r; lia). assert (oe <= N) by lia. lia.
        * rewrite !lookup_ge_None_2; [reflexivity|rewrite blockat_length; lia|rewrite replicate_length; lia].
      + intros j' Hj' _ _. destruct (Hin _ _ Hj') as [Hlt _]. lia. }
  assert (Hown : own_step (d_blk st) H3 t t').
  { split; [|split].
    - intros b Hb1 Hb2. rewrite F2 by (intros j Hj; exfalso; apply Hb1; eapply elem_of_list_lookup_2; exact Hj).
      destruct (Nat.lt_ge_cases b (d_fresh st)) as [Hlt|Hge]; [apply Hold; exact Hlt|].
      destruct (d_blk st2 !! b) eqn:E2; [exfalso; apply Hb2, Hnew; [exact Hge|eauto]|]. destruct (d_blk st !! b) eqn:E1; [|reflexivity].
      exfalso. assert (b < d_fresh st) by (apply Hkeys; eauto). lia.
    - intros b Hb1 Hb2. apply elem_of_list_lookup in Hb1 as [j Hj]. apply (F1 j); [exact Hj|lia|].
      destruct (Nat.lt_ge_cases j s) as [Hx|Hx]; [left; exact Hx|]. destruct (Nat.lt_ge_cases e j) as [Hy|Hy]; [right; exact Hy|].
      exfalso. apply Hb2. eapply elem_of_list_lookup_2. apply (Hkept j b Hj). lia.
    - intros b Hb1 Hb2. apply elem_of_list_lookup in Hb1 as [j Hj]. destruct (Hent _ _ Hj) as [E1 E2].
      destruct (decide (ns <= j <= ns + (e - s))) as [Hr|Hr]; [exfalso; apply Hb2; eapply elem_of_list_lookup_2; apply (E1 Hr)|].
      destruct (E2 Hr) as (G1 & _). destruct (d_blk st !! b) eqn:E; [|reflexivity]. exfalso. assert (b < d_fresh st) by (apply Hkeys; eauto). lia. }
  assert (Hkeys' : keys_below H3 (d_fresh st2)).
  { intros b Hs. destruct (d_blk st2 !! b) eqn:E; [apply Hk2; eauto|]. exfalso.
    assert (Hno : H3 !! b = d_blk st2 !! b); [|rewrite Hno, E in Hs; destruct Hs; discriminate].
    apply F2. intros j Hj _ _. destruct (Hin _ _ Hj) as [Hlt Hs']. rewrite <- (Hold _ Hlt), E in Hs'. destruct Hs'; discriminate. }
  assert (Hpos : 0 < ns * N + ob) by (assert (1 * N <= ns * N) by (apply Nat.mul_le_mono_r; lia); lia).
  assert (HL : s * N + ob + L = e * N + oe) by lia.
  assert (Hend2 : ns * N + ob + L = (ns + (e - s)) * N + oe).
  { assert (Hm : s * N <= e * N) by (apply Nat.mul_le_mono_r; lia). rewrite Nat.mul_add_distr_r, Nat.mul_sub_distr_r. lia. }
  assert (Hroom : ns * N + ob + L < length t' * N).
  { rewrite Hend2, Hlen. assert (Hm : S (S (ns + (e - s))) * N <= 2 * B * N) by (apply Nat.mul_le_mono_r; lia). simpl in *. lia. }
  assert (Hkeep : kept t p L t' (ns * N + ob)).
  { intros k b o Hk (j & Hj & Ho & Ex). rewrite Ep in Ex.
    assert (Hjs : s <= j). { destruct (Nat.le_gt_cases s j) as [Hx|Hx]; [exact Hx|]. assert (S j * N <= s * N) by (apply Nat.mul_le_mono_r; lia). simpl in *. lia. }
    assert (Hje : j <= e). { destruct (Nat.le_gt_cases j e) as [Hx|Hx]; [exact Hx|]. assert (S e * N <= j * N) by (apply Nat.mul_le_mono_r; lia). simpl in *. lia. }
    exists (ns + (j - s)). split; [apply Hkept; [exact Hj|lia]|]. split; [exact Ho|]. rewrite Nat.mul_add_distr_r, Nat.mul_sub_distr_r.
    assert (s * N <= j * N) by (apply Nat.mul_le_mono_r; lia). lia. }
  assert (Hspace : roomy t' (ns * N + ob) L).
  { unfold roomy. rewrite Hlen.
    assert (Hd : ns = (B * N * 2 - L) / (2 * N)) by (unfold ns; rewrite Nat.div_div by lia; reflexivity).
    pose proof (Nat.div_mod (B * N * 2 - L) (2 * N) ltac:(lia)) as D1. pose proof (Nat.mod_upper_bound (B * N * 2 - L) (2 * N) ltac:(lia)) as D2. rewrite <- Hd in D1.
    assert (D3 : 2 * N * ns = 2 * (ns * N)) by lia. rewrite D3 in D1. assert (ob <= N) by lia. assert (L <= B * N) by lia.
    replace (2 * B * N) with (2 * (B * N)) by lia. lia. }
  unfold eqp. destruct (decide (oe = N)) as [->|HoeN].
  - rewrite bool_decide_eq_true_2 by reflexivity.
    destruct (lookup_lt_is_Some_2 t' (S (ns + (e - s)))) as [b1 Hb1]; [lia|].
    rewrite (bind_ok _ _ _ _ _ (tab_at_ok _ _ _ (Some b1) ltac:(rewrite tabof_lookup, Hb1; reflexivity))). cbn [arr_begin]. rewrite bind_ret.
    rewrite Hcb. cbn [rd]. rewrite bind_ret. erewrite (q_put_ok _ _ _ _ Hid3). cbn [d_blk d_fresh d_obj]. rewrite Hobj, insert_insert.
    eexists _, _, t', (ns * N + ob). split; [reflexivity|]. split; [reflexivity|]. cbn [d_blk d_fresh].
    split; [|split; [exact Hlen|split; [exact Hown|split; [exact Hkeys'|split; [exact Hpos|split; [exact Hroom|split; [exact Hkeep|exact Hspace]]]]]]].
    assert (Hende : at_pos N tid t' (ns * N + ob + L) (It (S (ns + (e - s))) (PAt b1 0) (i_tab (q_end q)))).
    { exists b1, 0. cbn [i_map i_cur i_tab]. split; [exact Hb1|]. split; [reflexivity|]. split; [exact Htabe|]. split; [rewrite Hend2; simpl; lia|]. left. lia. }
    unfold rdy_ok. cbn [q_tab q_size q_cap q_beg q_end]. rewrite Hlen. split; [reflexivity|]. split; [reflexivity|]. split; [lia|]. split; [exact Hndt|]. split; [lia|].
    split; [|split; [exact Hende|exact Hhold']].
    destruct Hob as [Hob|[-> Hlb]].
    + rewrite bool_decide_eq_false_2 by (intros [= _ E]; lia). exists bb, ob. cbn [i_map i_cur i_tab]. split; [exact Htb'|]. auto.
    + assert (e = s) by lia. rewrite bool_decide_eq_true_2.
      * assert (HL0 : L = 0) by lia. rewrite HL0, Nat.add_0_r in Hende. exact Hende.
      * f_equal. assert (s = e) as Hx by lia. rewrite Hx in Htb. rewrite Htb in Hte. congruence.
  - rewrite bool_decide_eq_false_2 by congruence. assert (Hoe2 : oe < N) by lia. erewrite (q_put_ok _ _ _ _ Hid3). cbn [d_blk d_fresh d_obj]. rewrite Hobj, insert_insert.
    eexists _, _, t', (ns * N + ob). split; [reflexivity|]. split; [reflexivity|]. cbn [d_blk d_fresh].
    split; [|split; [exact Hlen|split; [exact Hown|split; [exact Hkeys'|split; [exact Hpos|split; [exact Hroom|split; [exact Hkeep|exact Hspace]]]]]]].
    unfold rdy_ok. cbn [q_tab q_size q_cap q_beg q_end]. rewrite Hlen. split; [reflexivity|]. split; [reflexivity|]. split; [lia|]. split; [exact Hndt|]. split; [lia|].
    split; [|split; [|exact Hhold']].
    + exists bb, ob. cbn [i_map i_cur i_tab]. split; [exact Htb'|]. split; [exact Hcb|]. split; [exact Htabb|]. split; [reflexivity|]. left. destruct Hob as [Hob|[-> Hlb]]; [exact Hob|].
      exfalso. assert (e = s) as Hx by lia. assert (e * N = s * N) by (f_equal; lia). lia.
    + exists be, oe. cbn [i_map i_cur i_tab]. split; [exact Hte'|]. split; [reflexivity|]. split; [exact Htabe|]. split; [exact Hend2|]. left. exact Hoe2.
Qed.
End Resize.
