(** Insertion, allocation and deallocation keep the allocator's invariant. *)
From Coq Require Import Sorted.
From Verif Require Import Base SMAModel SMASpec SMAProofs SMAInv.
Open Scope Z_scope.

Section Ops.
Context (MEM MAX : Z) (HP : params MEM MAX).
Notation K := (nlists MAX - 1)%nat.
Notation blk := (Z * Z)%type.
Notation inv := (inv MEM MAX).

Lemma bind_eq {S X Y} (m : M S X) (k : X -> M S Y) s x s' : m s = Ok (x, s') -> bind m k s = k x s'.
Proof. intros H. unfold bind. rewrite H. reflexivity. Qed.

Lemma insert_walk_ok st i addr : forall suf pre fuel, (length suf <= fuel)%nat -> links (next st) (Head i) (pre ++ suf) ->
  exists s1 s2, suf = s1 ++ s2 /\ insert_walk fuel addr (lastloc (Head i) pre) st = Ok (lastloc (Head i) (pre ++ s1), st) /\
    Forall (fun b => b < addr) s1 /\ match s2 with [] => True | b :: _ => addr <= b end.
Proof.
  induction suf as [|b suf IH]; intros pre fuel Hf Hl.
  - exists [], []. split; [reflexivity|]. split; [|split; [constructor|exact I]]. apply links_app in Hl as [_ Hl]. apply links_nil in Hl. rewrite app_nil_r.
    destruct fuel; cbn [insert_walk]; rewrite (bind_eq _ _ _ _ _ (rd_ok _ _ _ Hl)); reflexivity.
  - pose proof Hl as Hl0. apply links_app in Hl as [_ Hl]. apply links_cons in Hl as [Hb Hl]. destruct fuel as [|fuel]; [simpl in Hf; lia|]. cbn [insert_walk].
    rewrite (bind_eq _ _ _ _ _ (rd_ok _ _ _ Hb)). destruct (Z.gtb_spec addr b) as [Hgt|Hle].
    + destruct (IH (pre ++ [b]) fuel) as (s1 & s2 & -> & E & F1 & F2); [simpl in Hf; lia|rewrite <- app_assoc; exact Hl0|]. rewrite lastloc_snoc in E. exists (b :: s1), s2.
      split; [reflexivity|]. split; [|split; [constructor; [lia|exact F1]|exact F2]]. rewrite E, <- app_assoc. reflexivity.
    + exists [], (b :: suf). split; [reflexivity|]. split; [rewrite app_nil_r; reflexivity|]. split; [constructor|lia].
Qed.

Definition cls (n : Z) : nat := Nat.min (Z.to_nat (n / 8 - 1)) K.
Lemma size_to_index_ok n : n mod 8 = 0 -> 0 <= n -> n + 8 <= INT_MAX -> size_to_index n = Some (n / 8 - 1).
Proof. intros H8 H0 H. unfold size_to_index. rewrite round_up_ok by exact H. cbn. rewrite rounded_id by exact H8. rewrite Z.quot_div_nonneg by lia. reflexivity. Qed.
Lemma as_unsigned_nonneg z : 0 <= z -> as_unsigned z = z.
Proof. intros H. unfold as_unsigned. rewrite (proj2 (Z.ltb_ge _ _) H). reflexivity. Qed.
Lemma head_index_ok (st : sma) z : 0 <= z < Z.of_nat (nlists MAX) -> head_index MAX z st = Ok (Z.to_nat z, st).
Proof.
  intros H. unfold head_index. rewrite (proj2 (Z.ltb_ge z 0)) by lia. rewrite (proj2 (Z.leb_le 0 z)) by lia. rewrite (proj2 (Z.ltb_lt z _)) by lia. reflexivity.
Qed.
Lemma sorted_insert (pre suf : list Z) a : StronglySorted Z.lt (pre ++ suf) -> Forall (fun b => b < a) pre -> Forall (fun b => a < b) suf -> StronglySorted Z.lt (pre ++ a :: suf).
Proof.
  induction pre as [|x pre IH]; cbn [app]; intros Hs Hp Hq; [constructor; assumption|]. apply StronglySorted_inv in Hs as [Hs Hx]. apply Forall_cons in Hp as [Hxa Hp].
  constructor; [apply IH; assumption|]. apply Forall_app in Hx as [H1 H2]. apply Forall_app. split; [exact H1|]. constructor; assumption.
Qed.
Lemma split_fmap (xs : list blk) (p q : list Z) : xs.*1 = p ++ q -> exists pre suf, xs = pre ++ suf /\ pre.*1 = p /\ suf.*1 = q.
Proof. intros H. apply fmap_app_inv in H as (pre & suf & -> & -> & ->). eauto. Qed.

Lemma data_word_apart st G B b c : inv st G B -> b ∈ mjoin G ++ B -> c ∈ mjoin G ++ B -> 16 <= b.2 -> b.1 + 8 <> c.1.
Proof.
  intros HI Hb Hc H16 E. pose proof (good_of MEM MAX _ _ _ HI _ Hb) as Gb. pose proof (good_of MEM MAX _ _ _ HI _ Hc) as Gc. destruct b as [a n], c as [c m]. cbn [fst snd] in *.
  destruct (decide ((a, n) = (c, m))) as [[= -> ->]|Hne]; [lia|]. pose proof (inv_nodup MEM MAX _ _ _ HI) as Hnd. apply elem_of_Permutation in Hb as [L' HL]. rewrite HL in Hc. apply elem_of_cons in Hc as [Ec|Hc]; [congruence|].
  apply (sep _ (a, n) L' (c, m) c Hnd HL Hc); [rewrite <- E; apply bw_second; assumption|apply bw_first; exact Gc].
Qed.
Lemma lastloc_addr (i : nat) (zs : list Z) (st : sma) p x : m_mem (upd (lastloc (Head i) zs) p st) !! x = m_mem st !! x \/ x ∈ zs.
Proof.
  destruct (lastloc_in (Head i) zs) as [->|(a & -> & Ha)]; cbn [upd m_mem]; [left; reflexivity|]. destruct (decide (x = a)) as [->|Hne]; [right; exact Ha|left; rewrite lookup_insert_ne by congruence; reflexivity].
Qed.

(** Putting a block of the bag on its list. *)
Lemma insert_ok st G B a n : inv st G ((a, n) :: B) -> exists pre suf st', G !! cls n = Some (pre ++ suf) /\
  insert_block MEM MAX a n st = Ok (tt, st') /\ inv st' (<[cls n := pre ++ (a, n) :: suf]> G) B /\ stable B st st' /\
  (forall z, z ∈ pre.*1 -> z < a) /\ (forall z, z ∈ suf.*1 -> a < z).
Proof.
  intros HI. destruct (K_val MEM MAX HP) as (HK & HK1 & HKn).
  assert (Hin : (a, n) ∈ mjoin G ++ (a, n) :: B) by (apply elem_of_app; right; left).
  destruct (block_bounds MEM MAX HP _ _ _ HI a n Hin) as (Ba & Ba8 & Bn & Bn8 & Bm). pose proof (good_of MEM MAX _ _ _ HI _ Hin) as Hg.
  destruct HP as (HMAX & HMEM & HM8 & HMI). destruct (div8 _ Bn8) as [q Hq].
  assert (Hq8 : n / 8 = q) by (rewrite Hq, Z.mul_comm; apply Z.div_mul; lia).
  assert (Hlt : (cls n < length G)%nat) by (rewrite (inv_len _ _ _ _ _ HI); unfold cls; lia).
  destruct (lookup_lt_is_Some_2 G (cls n) Hlt) as [xs Hxs].
  assert (HndW := inv_nodup MEM MAX _ _ _ HI).
  assert (Hne : forall c, c ∈ mjoin G ++ B -> forall x, x ∈ bw (a, n) -> x ∈ bw c -> False).
  { intros c Hc x H1 H2. eapply (sep _ (a, n) (mjoin G ++ B)); [exact HndW|symmetry; apply Permutation_middle|exact Hc|exact H1|exact H2]. }
  assert (Hgx : forall b, b ∈ xs -> good b) by (intros b Hb; eapply (good_of MEM MAX _ _ _ HI), in_list; eassumption).
  assert (Hna : forall b, b ∈ xs -> b.1 <> a).
  { intros [b m] Hb E. cbn [fst] in E. subst b. eapply (Hne (a, m)); [apply elem_of_app; left; eapply join_in; eassumption|apply bw_first; exact Hg|apply bw_first, Hgx, Hb]. }
  pose proof (inv_links _ _ _ _ _ HI _ _ Hxs) as Hl.
  destruct (insert_walk_ok st (cls n) a xs.*1 [] (fuel0 MEM)) as (p & s & Eps & Ew & Fp & Fs); [rewrite fmap_length; pose proof (fuel_ok MEM MAX _ _ _ HI _ _ Hxs); lia|exact Hl|].
  cbn [app] in Ew. apply split_fmap in Eps as (pre & suf & -> & Epre & Esuf). subst p s.
  assert (Hsort := inv_sorted _ _ _ _ _ HI _ _ Hxs). rewrite fmap_app in Hsort, Hl.
  assert (Fs' : Forall (fun b => a < b) suf.*1).
  { destruct suf as [|[b m] suf]; [constructor|]. cbn [fmap list_fmap fst] in *. assert (Hab : a < b).
    { assert (b <> a) by (apply (Hna (b, m)), elem_of_app; right; left). lia. }
    constructor; [exact Hab|]. assert (Hs2 : StronglySorted Z.lt (b :: suf.*1)).
    { clear -Hsort. induction pre.*1 as [|x l IH]; [exact Hsort|]. cbn [app] in Hsort. apply StronglySorted_inv in Hsort as [H _]. apply IH, H. }
    apply StronglySorted_inv in Hs2 as [_ Hs2]. eapply Forall_impl; [exact Hs2|]. intros z Hz. cbn in Hz. lia. }
  set (l := lastloc (Head (cls n)) pre.*1) in *.
  assert (Hlast : exists nx, next st l = Some nx).
  { apply links_app in Hl as [_ Hl]. destruct suf as [|[c m] suf]; [apply links_nil in Hl; eauto|apply links_cons in Hl as [Hl _]; eauto]. }
  destruct Hlast as [nx Hnx].
  assert (Hloc : okloc MEM st l) by (eapply (lastloc_ok MEM MAX HP); eassumption).
  assert (Hpa : in_pool MEM a = true) by (eapply (word_in_pool MEM MAX HP _ _ _ HI _ _ Hin), bw_first; exact Hg).
  set (st1 := upd (Blk a) nx st). assert (Hloc1 : okloc MEM st1 l) by (destruct l; exact Hloc).
  set (st2 := upd l (Some a) st1).
  assert (Hla : l <> Blk a).
  { unfold l. destruct (lastloc_in (Head (cls n)) pre.*1) as [->|(c & -> & Hc)]; [discriminate|]. intros [= ->]. apply elem_of_list_fmap in Hc as (b & Eb & Hb). apply (Hna b); [apply elem_of_app; auto|auto]. }
  assert (Hadd : link_add MEM l a st = Ok (tt, st2)).
  { unfold link_add. rewrite (bind_eq _ _ _ _ _ (rd_ok _ _ _ Hnx)). rewrite (bind_eq _ _ _ _ _ (wr_ok MEM st (Blk a) nx Hpa)). apply wr_ok. exact Hloc1. }
  set (st3 := if (cls n =? K)%nat then SMA (m_free st2) (m_heads st2) (<[a + 8 := WInt n]> (m_mem st2)) else st2).
  assert (Hins : insert_block MEM MAX a n st = Ok (tt, st3)).
  { unfold insert_block. rewrite (proj2 (Z.leb_gt n 0)) by lia. rewrite (size_to_index_ok n Bn8) by lia. cbn [lift]. rewrite bind_ret. rewrite as_unsigned_nonneg by (rewrite Hq8; lia).
    assert (Hh : (if n / 8 - 1 >=? Z.of_nat K then ret K else head_index MAX (n / 8 - 1)) st = Ok (cls n, st)).
    { destruct (Z.geb_spec (n / 8 - 1) (Z.of_nat K)) as [Hge|Hlt2].
      - unfold ret. f_equal. f_equal. unfold cls. lia.
      - rewrite head_index_ok by lia. unfold cls. f_equal. f_equal. lia. }
    rewrite (bind_eq _ _ _ _ _ Hh), (bind_eq _ _ _ _ _ Ew). fold l. rewrite (bind_eq _ _ _ _ _ Hadd). unfold st3. destruct (Nat.eqb_spec (cls n) K) as [EK|NK]; [|reflexivity].
    assert (Hrl : next st2 l = Some (Some a)) by (unfold st2; rewrite (next_upd MEM) by exact Hloc1; rewrite decide_True by reflexivity; reflexivity).
    rewrite (bind_eq _ _ _ _ _ (rd_ok _ _ _ Hrl)). unfold wr_data, wr_word. assert (Hp8 : in_pool MEM (a + 8) = true); [|rewrite Hp8; reflexivity].
    eapply (word_in_pool MEM MAX HP _ _ _ HI _ _ Hin), bw_second; [exact Hg|]. unfold cls in EK. lia. }
  assert (Hbig : cls n = K -> 16 <= n /\ 8 * Z.of_nat K < n) by (unfold cls; lia).
  assert (Hmem3 : forall x, m_mem st3 !! x = m_mem st !! x \/ x ∈ bw (a, n) \/ x ∈ pre.*1).
  { intros x. assert (H2 : m_mem st2 !! x = m_mem st !! x \/ x ∈ pre.*1 \/ x = a).
    { unfold st2. destruct (lastloc_addr (cls n) pre.*1 st1 (Some a) x) as [E|E]; [fold l in E; rewrite E|auto].
      unfold st1. cbn [upd m_mem]. destruct (decide (x = a)) as [->|Hxa]; [auto|]. left. rewrite lookup_insert_ne by congruence. reflexivity. }
    assert (Ha : a ∈ bw (a, n)) by apply bw_first, Hg. unfold st3. destruct (Nat.eqb_spec (cls n) K) as [EK|NK].
    - cbn [m_mem]. destruct (decide (x = a + 8)) as [->|Hx8]; [right; left; apply bw_second; [exact Hg|apply Hbig, EK]|]. rewrite lookup_insert_ne by congruence. destruct H2 as [E | [E | ->]]; auto.
    - destruct H2 as [E | [E | ->]]; auto. }
  assert (Hpw : forall x, x ∈ pre.*1 -> x ∈ words pre).
  { intros x Hx. apply elem_of_list_fmap in Hx as ([c m] & -> & Hc). apply elem_words. exists (c, m). split; [exact Hc|]. apply bw_first, Hgx, elem_of_app; auto. }
  exists pre, suf, st3. split; [exact Hxs|]. split; [exact Hins|]. split; [|split; [split|split]].
  - eapply (inv_change MEM MAX st G ((a, n) :: B) st3 (cls n) (pre ++ suf) _ B HI Hxs).
    + apply words_perm. rewrite <- !app_assoc. apply Permutation_app_head. cbn [app]. apply Permutation_middle.
    + pose proof (inv_good _ _ _ _ _ HI) as Hgg. apply Forall_app in Hgg as [_ Hgg]. apply Forall_cons in Hgg as [_ Hgg]. apply Forall_app. split; [|exact Hgg].
      apply Forall_forall. intros b Hb. apply elem_of_app in Hb as [Hb|Hb]; [apply Hgx, elem_of_app; auto|]. apply elem_of_cons in Hb as [->|Hb]; [exact Hg|]. apply Hgx, elem_of_app; auto.
    + rewrite fmap_app. cbn [fmap list_fmap fst]. assert (L2 : links (next st2) (Head (cls n)) (pre.*1 ++ a :: suf.*1)).
      { eapply (links_ins (next st)); [pose proof (addrs_nodup MEM MAX _ _ _ HI _ _ Hxs) as H; rewrite fmap_app in H; exact H| |exact Hl| | |].
        - rewrite <- fmap_app. intros Ha. apply elem_of_list_fmap in Ha as (b & Eb & Hb). apply (Hna b Hb). auto.
        - unfold st2. rewrite (next_upd MEM) by exact Hloc1. rewrite decide_True by reflexivity. reflexivity.
        - unfold st2. rewrite (next_upd MEM) by exact Hloc1. rewrite decide_False by (intros E; apply Hla; auto). unfold st1. rewrite (next_upd MEM) by exact Hpa. rewrite decide_True by reflexivity. symmetry. exact Hnx.
        - intros l' H1 H2. unfold st2. rewrite (next_upd MEM) by exact Hloc1. rewrite decide_False by exact H1. unfold st1. rewrite (next_upd MEM) by exact Hpa. rewrite decide_False by exact H2. reflexivity. }
      unfold st3. destruct (Nat.eqb_spec (cls n) K) as [EK|NK]; [|exact L2]. eapply links_ext; [|exact L2].
      intros l' [->|(c & -> & Hc)]; cbn [next m_heads m_mem]; [reflexivity|]. rewrite lookup_insert_ne; [reflexivity|]. intros Ec. subst c.
      rewrite elem_of_app, elem_of_cons in Hc. assert (Hc' : a + 8 ∈ (pre ++ suf).*1) by (rewrite fmap_app, elem_of_app; destruct Hc as [Hc|[Hc|Hc]]; [auto|lia|auto]).
      apply elem_of_list_fmap in Hc' as ([c m] & Ec & Hc'). cbn [fst] in Ec. subst c. eapply (Hne (a + 8, m)); [apply elem_of_app; left; eapply join_in; eassumption|apply bw_second; [exact Hg|apply Hbig, EK]|apply bw_first, Hgx, Hc'].
    + intros b Hb. assert (Hb' : b = (a, n) \/ b ∈ pre ++ suf) by (rewrite !elem_of_app, ?elem_of_cons in *; tauto). destruct Hb' as [->|Hb'].
      * split; cbn [fst snd]; [unfold cls; lia|]. intros EK. destruct (Hbig EK) as [B1 B2]. split; [exact B1|]. split; [left; exact B2|]. unfold st3. rewrite (proj2 (Nat.eqb_eq _ _) EK). cbn [m_mem]. rewrite lookup_insert. reflexivity.
      * destruct (inv_okb _ _ _ _ _ HI _ _ _ Hxs Hb') as [O1 O2]. split; [exact O1|]. intros EK. destruct (O2 EK) as (P1 & P2 & P3). split; [exact P1|]. split; [exact P2|].
        destruct b as [ba bn]. cbn [fst snd] in *. destruct (Hmem3 (ba + 8)) as [E|[E|E]]; [rewrite E; exact P3|exfalso|exfalso].
        -- eapply (Hne (ba, bn)); [apply elem_of_app; left; eapply join_in; eassumption|exact E|apply bw_second; [apply (Hgx _ Hb')|exact P1]].
        -- apply elem_of_list_fmap in E as (c & Ec & Hc). eapply (data_word_apart _ _ _ (ba, bn) c HI); [eapply in_list; eassumption|eapply in_list; [exact Hxs|apply elem_of_app; auto]|exact P1|exact Ec].
    + rewrite fmap_app. cbn [fmap list_fmap fst]. apply sorted_insert; assumption.
    + unfold st3. destruct (cls n =? K)%nat; cbn [m_heads]; unfold st2, st1; rewrite !upd_heads_len; reflexivity.
    + intros j Hj. assert (E : m_heads st2 !! j = m_heads st !! j) by (unfold st2; unfold l; rewrite upd_heads_other by exact Hj; reflexivity). unfold st3. destruct (cls n =? K)%nat; exact E.
    + intros x. destruct (Hmem3 x) as [E|[E|E]]; [right; exact E|left|left]; rewrite !words_app, words_cons, !elem_of_app; auto.
  - unfold st3. destruct (cls n =? K)%nat; cbn [m_free]; unfold st2; rewrite upd_free; reflexivity.
  - intros x Hx. apply elem_words in Hx as (c & Hc & Hxc). destruct (Hmem3 x) as [E|[E|E]]; [exact E|exfalso|exfalso].
    + apply (Hne c) with (x := x); [apply elem_of_app; auto|exact E|exact Hxc].
    + apply Hpw, elem_words in E as (b & Hb & Hxb). eapply (sep_app (mjoin G) ((a, n) :: B) b c x HndW); [eapply join_in; [exact Hxs|apply elem_of_app; auto]|right; exact Hc|exact Hxb|exact Hxc].
  - intros z Hz. rewrite Forall_forall in Fp. apply Fp, Hz.
  - intros z Hz. rewrite Forall_forall in Fs'. apply Fs', Hz.
Qed.
End Ops.
