(** StaticMemAllocator serving nodes of one size: it never hands out a node in
    use and has room for a fixed number of nodes. *)
From Coq Require Import Sorted.
From Verif Require Import Base Alloc AllocProofs SMAModel SMASpec SMAProofs SMAInv SMAOps SMAAlloc SMAMerge SMAHist SMANodes.
Open Scope Z_scope.

Section Nodes.
Context (MEM MAX n : Z) (HP : params MEM MAX) (H0 : 0 < n) (H8 : n + 8 <= INT_MAX).
Notation r := (rounded n).
Notation blk := (Z * Z)%type.
Notation state_ok := (state_ok MEM MAX).
Notation after := (sma_after MEM MAX n).
Notation pol := (sma_nodes MEM MAX n).

Lemma r_pos : 0 < r.
Proof. pose proof (rounded_bounds n). lia. Qed.

Fixpoint nled (log : list aev) : gmap Z Z :=
  match log with
  | [] => ∅
  | Got a :: log => <[Z.of_nat a := n]> (nled log)
  | Gave a :: log => delete (Z.of_nat a) (nled log)
  end.
Lemma nled_spec log z m : nled log !! z = Some m <-> m = n /\ 0 <= z /\ Z.to_nat z ∈ al_live log.
Proof.
  revert z m. induction log as [|[a|a] log IH]; intros z m; cbn [nled al_live].
  - rewrite lookup_empty. split; [discriminate|]. intros (_ & _ & H). set_solver.
  - rewrite elem_of_union, elem_of_singleton. destruct (decide (z = Z.of_nat a)) as [->|Hne].
    + rewrite lookup_insert, Nat2Z.id. split; [intros [= <-]; split; [auto|split; [lia|auto]]|intros (-> & _); auto].
    + rewrite lookup_insert_ne by congruence. rewrite IH. split; intros (? & ? & H); (split; [auto|split; [auto|]]); [auto|]. destruct H as [H|H]; [|exact H]. exfalso. lia.
  - rewrite elem_of_difference, elem_of_singleton. destruct (decide (z = Z.of_nat a)) as [->|Hne].
    + rewrite lookup_delete, Nat2Z.id. split; [discriminate|]. intros (_ & _ & _ & H). destruct H. reflexivity.
    + rewrite lookup_delete_ne by congruence. rewrite IH. split; intros (? & ? & H); (split; [auto|split; [auto|]]); [split; [auto|lia]|tauto].
Qed.
Lemma nled_in log a : a ∈ al_live log -> nled log !! Z.of_nat a = Some n.
Proof. intros H. apply nled_spec. rewrite Nat2Z.id. split; [reflexivity|split; [lia|exact H]]. Qed.
Lemma nled_size log : size (nled log) = size (al_live log).
Proof.
  assert (E : dom (nled log) = set_map Z.of_nat (al_live log) :> gset Z).
  { apply set_eq. intros z. rewrite elem_of_dom, elem_of_map. split.
    - intros [m Hm]. apply nled_spec in Hm as (_ & Hz & Hi). exists (Z.to_nat z). split; [lia|exact Hi].
    - intros (a & -> & Ha). exists n. apply nled_in, Ha. }
  rewrite <- size_dom, E. clear E. generalize (al_live log). intros s. induction s as [|x s Hx IH] using set_ind_L; [rewrite set_map_empty, !size_empty; reflexivity|].
  rewrite set_map_union_L, set_map_singleton_L, !size_union, !size_singleton, IH by (try set_solver; intros z; rewrite elem_of_singleton, elem_of_map; intros -> (y & Hy & Hs); apply Nat2Z.inj in Hy; subst; contradiction). reflexivity.
Qed.
Lemma const_bytes (led : gmap Z Z) : (forall z m, led !! z = Some m -> m = n) -> live_bytes led = Z.of_nat (size led) * r.
Proof.
  unfold live_bytes. induction led as [|a m led Ha IH] using map_ind; intros H; [rewrite map_fold_empty, map_size_empty; reflexivity|].
  rewrite map_fold_insert_L; [|intros; lia|exact Ha]. rewrite map_size_insert_None by exact Ha. rewrite IH.
  - rewrite (H a m (lookup_insert _ _ _)). lia.
  - intros z m' Hz. apply (H z m'). rewrite lookup_insert_ne; [exact Hz|congruence].
Qed.
Lemma nled_bytes log : live_bytes (nled log) = Z.of_nat (size (al_live log)) * r.
Proof. rewrite const_bytes, nled_size; [reflexivity|]. intros z m Hm. apply nled_spec in Hm. tauto. Qed.

(** Free blocks: nodes given back, and what has not been used yet, at the end of
    the pool. *)
Definition shape (G : list (list blk)) : Prop := forall b m, (b, m) ∈ mjoin G -> m = r \/ b + m = MEM.
Definition nok (log : list aev) (st : sma) (G : list (list blk)) : Prop := state_ok st (nled log) G /\ shape G.

Lemma nok_init : exists G, nok [] (sma_init MEM MAX) G.
Proof.
  eexists. split; [apply init_ok, HP|]. intros b m. rewrite join_replicate, elem_of_list_singleton. intros [= -> ->]. right. lia.
Qed.
Lemma state_bytes log st G : state_ok st (nled log) G -> bytes (mjoin G) = MEM - Z.of_nat (size (al_live log)) * r.
Proof. intros (HI & _). pose proof (inv_bytes MEM MAX HP _ _ _ HI) as H. rewrite blocks_bytes, nled_bytes in H. lia. Qed.

Lemma nok_alloc log st G : nok log st G ->
  (allocate MEM MAX n st = Ok (None, st) /\ (sma_room MEM n <= size (al_live log))%nat) \/
  (exists a st' G', allocate MEM MAX n st = Ok (Some a, st') /\ 0 <= a /\ Z.to_nat a ∉ al_live log /\
     (size (al_live log) < sma_room MEM n)%nat /\ nok (Got (Z.to_nat a) :: log) st' G').
Proof.
  intros [Hok Hsh]. pose proof Hok as (HI & _). pose proof (state_bytes _ _ _ Hok) as Hb. pose proof r_pos as Hr.
  assert (Hroom : Z.of_nat (sma_room MEM n) = MEM / r). { unfold sma_room. rewrite Z2Nat.id; [reflexivity|]. destruct HP as (_ & H & _). apply Z.div_pos; lia. }
  destruct (alloc_step MEM MAX HP _ _ _ n Hok H0 H8) as [[E Hn]|(a & d & R & G' & st' & E1 & E2 & E3 & E4 & E5 & Hok' & _)].
  - left. split; [exact E|]. assert (Hlt : bytes (mjoin G) < r).
    { assert (Hend : forall b m, (b, m) ∈ mjoin G -> b + m = MEM). { intros b m Hin. pose proof (Hn _ _ Hin). destruct (Hsh _ _ Hin); [lia|assumption]. }
      destruct (mjoin G) as [|[b m] [|[c k] l]] eqn:EG.
      - exact Hr.
      - cbn. specialize (Hn b m ltac:(left)). lia.
      - exfalso. assert (Hd : disjoint_ranges b m c k).
        { apply (disjoint_of MEM MAX HP st G [(b, m)] (b, m) ((c, k) :: l ++ blocks (nled log)) (c, k) (blocks (nled log)) HI); [rewrite EG; reflexivity|left|left]. }
        assert (Hpos : forall x y, (x, y) ∈ mjoin G -> 0 < y). { intros x y Hin. apply (block_bounds MEM MAX HP _ _ _ HI x y). apply elem_of_app. left. exact Hin. }
        rewrite EG in Hpos. pose proof (Hpos b m ltac:(left)). pose proof (Hpos c k ltac:(right; left)). pose proof (Hend b m ltac:(left)). pose proof (Hend c k ltac:(right; left)).
        apply (Hd (MEM - 1)); unfold within; lia. }
    apply Nat2Z.inj_le. rewrite Hroom. apply Z.lt_succ_r. apply Z.div_lt_upper_bound; lia.
  - right. exists a, st', G'.
    assert (Hin : (a, d) ∈ mjoin G) by (rewrite E1; left).
    pose proof (block_bounds MEM MAX HP _ _ _ HI a d ltac:(apply elem_of_app; left; exact Hin)) as (Ha & _).
    split; [exact E5|]. split; [exact Ha|].
    assert (Hfresh : Z.to_nat a ∉ al_live log). { intros Hl. apply nled_in in Hl. rewrite Z2Nat.id in Hl by exact Ha. congruence. }
    split; [exact Hfresh|]. split.
    + apply Nat2Z.inj_lt. rewrite Hroom. apply Z.lt_le_trans with (Z.of_nat (size (al_live log)) + 1); [lia|]. apply Z.div_le_lower_bound; [exact Hr|].
      pose proof (bytes_elem (mjoin G) (a, d)) as Hge. cbn [snd] in Hge. pose proof (inv_good _ _ _ _ _ HI) as Hg. apply Forall_app in Hg as [Hg _]. specialize (Hge Hg Hin). lia.
    + split.
      * cbn [nled]. rewrite Z2Nat.id by exact Ha. exact Hok'.
      * intros b m. rewrite E2, elem_of_app. intros [Hin2|Hin2].
        -- destruct (Z.eqb_spec d r) as [|Hne]; [inversion Hin2|]. apply elem_of_list_singleton in Hin2. injection Hin2 as -> ->. destruct (Hsh _ _ Hin); [contradiction|]. right. lia.
        -- apply Hsh. rewrite E1. right. exact Hin2.
Qed.
Lemma nok_dealloc log st G a : nok log st G -> a ∈ al_live log ->
  exists st' G', deallocate MEM MAX (Some (Z.of_nat a)) n st = Ok (true, st') /\ nok (Gave a :: log) st' G'.
Proof.
  intros [Hok Hsh] Ha. destruct (dealloc_step MEM MAX HP _ _ _ _ _ Hok (nled_in _ _ Ha)) as (G' & st' & E & Hok' & Hm & _).
  exists st', G'. split; [exact E|]. split; [exact Hok'|]. intros b m. rewrite Hm, elem_of_cons. intros [[= -> ->]|Hb]; [left; reflexivity|apply Hsh, Hb].
Qed.
Lemma served_nok log : served pol log -> exists st G, after log = Some st /\ nok log st G.
Proof.
  induction log as [|[a|a] log IH]; cbn [served sma_after].
  - intros _. destruct nok_init as [G HG]. eauto.
  - intros [Hp Hs]. destruct (IH Hs) as (st & G & E & Hok). unfold sma_nodes in Hp. rewrite E in *. cbn [mbind option_bind] in *.
    destruct (nok_alloc _ _ _ Hok) as [[E2 _]|(b & st' & G' & E2 & _ & _ & _ & Hok')]; rewrite E2 in *; [discriminate|]. injection Hp as <-. eauto.
  - intros [Hp Hs]. destruct (IH Hs) as (st & G & E & Hok). rewrite E. cbn [mbind option_bind].
    destruct (nok_dealloc _ _ _ _ Hok Hp) as (st' & G' & E2 & Hok'). rewrite E2. eauto.
Qed.
Theorem nodes_sound : sound pol.
Proof.
  intros log a Hs Hp. destruct (served_nok _ Hs) as (st & G & E & Hok). unfold sma_nodes in Hp. rewrite E in Hp. cbn [mbind option_bind] in Hp.
  destruct (nok_alloc _ _ _ Hok) as [[E2 _]|(b & st' & G' & E2 & _ & Hf & _)]; rewrite E2 in Hp; [discriminate|]. injection Hp as <-. exact Hf.
Qed.
Theorem nodes_room : room pol (sma_room MEM n).
Proof.
  intros log Hs. destruct (served_nok _ Hs) as (st & G & E & Hok). unfold sma_nodes. rewrite E. cbn [mbind option_bind].
  destruct (nok_alloc _ _ _ Hok) as [[E2 Hl]|(b & st' & G' & E2 & _ & _ & Hl & _)]; rewrite E2.
  - split; [intros [? [=]]|lia].
  - split; [intros _; exact Hl|eauto].
Qed.
(** Nodes in use lie in the pool and apart from each other. *)
Theorem nodes_apart log : served pol log -> 
  (forall a, a ∈ al_live log -> Z.of_nat a mod 8 = 0 /\ Z.of_nat a + n <= MEM) /\
  (forall a b, a ∈ al_live log -> b ∈ al_live log -> a <> b -> disjoint_ranges (Z.of_nat a) n (Z.of_nat b) n).
Proof.
  intros Hs. destruct (served_nok _ Hs) as (st & G & _ & (HI & _ & Hn) & _). pose proof (rounded_bounds n) as Hr. split.
  - intros a Ha%nled_in. destruct (block_bounds MEM MAX HP _ _ _ HI (Z.of_nat a) r) as (_ & H & _ & _ & H2); [apply elem_of_app; right; apply blocks_in, Ha|]. split; [exact H|lia].
  - intros a b Ha%nled_in Hb%nled_in Hne x Hx Hy.
    assert (Hd : disjoint_ranges (Z.of_nat a) r (Z.of_nat b) r).
    { apply (disjoint_of MEM MAX HP st G (mjoin G ++ [(Z.of_nat a, r)]) (Z.of_nat a, r) (blocks (delete (Z.of_nat a) (nled log))) (Z.of_nat b, r) (blocks (nled log)) HI).
      - rewrite (blocks_delete _ _ _ Ha), <- app_assoc. reflexivity.
      - apply elem_of_app. right. left.
      - apply blocks_in. rewrite lookup_delete_ne by lia. exact Hb. }
    apply (Hd x); unfold within in *; lia.
Qed.

(** ** What is written into nodes does not matter. *)
Definition sub (t s : sma) : Prop := m_free t = m_free s /\ m_heads t = m_heads s /\ m_mem t ⊆ m_mem s.
Definition mono {X} (m : M sma X) : Prop := forall t s x t', sub t s -> m t = Ok (x, t') -> exists s', m s = Ok (x, s') /\ sub t' s'.
Lemma mono_ret {X} (x : X) : mono (ret x).
Proof. intros t s y t' H [= <- <-]. exists s. split; [reflexivity|exact H]. Qed.
Lemma mono_bind {X Y} (m : M sma X) (k : X -> M sma Y) : mono m -> (forall x, mono (k x)) -> mono (bind m k).
Proof.
  intros Hm Hk t s y t' H. unfold bind. destruct (m t) as [[x t1]| | |] eqn:E; try discriminate. intros E2.
  destruct (Hm _ _ _ _ H E) as (s1 & E1 & H1). rewrite E1. exact (Hk x _ _ _ _ H1 E2).
Qed.
Lemma mono_ub {X} : mono (X := X) ub.
Proof. intros t s y t' H. discriminate. Qed.
Lemma mono_div {X} : mono (X := X) diverge.
Proof. intros t s y t' H. discriminate. Qed.
Lemma mono_lift {X} (o : option X) : mono (lift o).
Proof. destruct o; [apply mono_ret|apply mono_ub]. Qed.
Lemma mono_head_index z : mono (head_index MAX z).
Proof. unfold head_index. destruct (_ && _); [apply mono_ret|apply mono_ub]. Qed.
Lemma mono_rd l : mono (rd l).
Proof.
  intros t s p t' (H1 & H2 & H3). unfold rd. destruct (next t l) as [q|] eqn:E; [|discriminate]. intros [= <- <-].
  assert (E2 : next s l = Some q).
  { destruct l as [i|a]; cbn [next] in *; [congruence|]. destruct (m_mem t !! a) as [w|] eqn:Ea; [|discriminate]. rewrite (lookup_weaken _ _ _ _ Ea H3). exact E. }
  rewrite E2. exists s. split; [reflexivity|]. repeat split; assumption.
Qed.
Lemma mono_wr_word a w : mono (wr_word MEM a w).
Proof.
  intros t s p t' (H1 & H2 & H3). unfold wr_word. destruct (in_pool MEM a); [|discriminate]. intros [= <- <-]. eexists. split; [reflexivity|].
  split; [exact H1|]. split; [exact H2|]. cbn [m_mem]. apply insert_mono, H3.
Qed.
Lemma mono_wr l p : mono (wr MEM l p).
Proof.
  destruct l as [i|a]; [|apply mono_wr_word]. intros t s x t' (H1 & H2 & H3). cbn [wr]. rewrite <- H2. destruct (i <? length (m_heads t))%nat; [|discriminate].
  intros [= <- <-]. eexists. split; [reflexivity|]. split; [exact H1|]. split; [reflexivity|exact H3].
Qed.
Lemma mono_rd_data a : mono (rd_data a).
Proof.
  intros t s p t' H. pose proof H as (_ & _ & H3). unfold rd_data. destruct (m_mem t !! (a + 8)) as [w|] eqn:E; [|discriminate].
  rewrite (lookup_weaken _ _ _ _ E H3). destruct w; try discriminate. intros [= <- <-]. eexists. split; [reflexivity|exact H].
Qed.
Lemma mono_add_free d : mono (add_free d).
Proof. intros t s p t' (H1 & H2 & H3) [= <- <-]. eexists. split; [reflexivity|]. split; [cbn; congruence|]. split; assumption. Qed.
Ltac mono := repeat first [apply mono_ret | apply mono_ub | apply mono_div | apply mono_lift | apply mono_head_index | apply mono_rd | apply mono_wr | apply mono_wr_word
  | apply mono_rd_data | apply mono_add_free | apply mono_bind; [|intros ?] | match goal with |- mono (match ?x with _ => _ end) => destruct x end].
Lemma mono_insert_walk fuel addr : forall l, mono (insert_walk fuel addr l).
Proof. induction fuel as [|f IH]; intros l; cbn [insert_walk]; mono. apply IH. Qed.
Lemma mono_insert_block a d : mono (insert_block MEM MAX a d).
Proof. unfold insert_block, link_add, wr_data. mono; try apply mono_insert_walk. Qed.
Lemma mono_quick_search fuel : forall i, mono (quick_search MAX fuel i).
Proof. induction fuel as [|f IH]; intros i; cbn [quick_search]; mono. apply IH. Qed.
Lemma mono_pool_search fuel b : forall l, mono (pool_search fuel b l).
Proof. induction fuel as [|f IH]; intros l; cbn [pool_search]; mono. apply IH. Qed.
Lemma mono_allocate m : mono (allocate MEM MAX m).
Proof.
  unfold allocate, quick_alloc, pool_alloc. mono; try apply mono_quick_search; try apply mono_pool_search; try apply mono_insert_block.
Qed.
Lemma mono_deallocate a m : mono (deallocate MEM MAX a m).
Proof. unfold deallocate. mono. apply mono_insert_block. Qed.

(** Forgetting the words of the live blocks. *)
Definition bare (led : gmap Z Z) (t : sma) : sma := SMA (m_free t) (m_heads t) (filter (fun p => p.1 ∉ words (blocks led)) (m_mem t)).
Lemma bare_sub led t s : sub t s -> sub (bare led t) s.
Proof. intros (H1 & H2 & H3). split; [exact H1|]. split; [exact H2|]. cbn [bare m_mem]. etrans; [apply map_filter_subseteq|exact H3]. Qed.
Lemma bare_ok led t G : state_ok t led G -> state_ok (bare led t) led G.
Proof.
  intros (HI & Hf & Hn). split; [|split; [exact Hf|exact Hn]]. eapply inv_frame; [exact HI|reflexivity|]. intros x Hx. cbn [bare m_mem].
  apply option_eq. intros w. rewrite map_filter_lookup_Some. split; [tauto|]. intros E. split; [exact E|]. cbn [fst]. intros Hl.
  pose proof (inv_nodup MEM MAX _ _ _ HI) as Hnd. rewrite words_app in Hnd. apply NoDup_app in Hnd as (_ & Hd & _). exact (Hd x Hx Hl).
Qed.
Lemma bare_none led t x : x ∈ words (blocks led) -> m_mem (bare led t) !! x = None.
Proof. intros Hx. cbn [bare m_mem]. apply map_filter_lookup_None. right. intros w _ H. exact (H Hx). Qed.

(** The state without the nodes' contents, which both the policy's allocator and
    the one that runs extend. *)
Definition core (log : list aev) (t s u : sma) : Prop :=
  (exists G, nok log t G) /\ sub t s /\ sub t u /\ after log = Some u /\ served pol log /\ (forall x, x ∈ words (blocks (nled log)) -> m_mem t !! x = None).
Theorem runs_core log st : sma_runs MEM MAX n log st -> exists t u, core log t st u.
Proof.
  assert (Hsub : forall t, sub t t) by (intros t; repeat split; reflexivity).
  induction 1 as [|log st a st' _ IH E|log st st' _ IH E|log st a b st' _ IH Ha E|log st a x w st' _ IH Ha Hx Hx8 E].
  - destruct nok_init as [G HG]. exists (sma_init MEM MAX), (sma_init MEM MAX). split; [eauto|]. split; [apply Hsub|]. split; [apply Hsub|]. split; [reflexivity|]. split; [exact I|].
    intros x Hx. cbn [nled] in Hx. unfold blocks in Hx. rewrite map_to_list_empty in Hx. inversion Hx.
  - destruct IH as (t & u & [G Hok] & Hts & Htu & Eu & Hsv & Hn). destruct (nok_alloc _ _ _ Hok) as [[E2 _]|(b & t' & G' & E2 & Hb & _ & _ & Hok')].
    + destruct (mono_allocate n _ _ _ _ Hts E2) as (s' & E3 & _). congruence.
    + destruct (mono_allocate n _ _ _ _ Hts E2) as (s' & E3 & Hs'). rewrite E in E3. injection E3 as <- <-.
      destruct (mono_allocate n _ _ _ _ Htu E2) as (u' & E4 & Hu'). exists (bare (nled (Got (Z.to_nat a) :: log)) t'), u'.
      split; [exists G'; destruct Hok' as [H1 H2]; split; [apply bare_ok, H1|exact H2]|]. split; [apply bare_sub, Hs'|]. split; [apply bare_sub, Hu'|].
      split; [cbn [sma_after]; rewrite Eu; cbn [mbind option_bind]; rewrite E4; reflexivity|].
      split; [|intros x; apply bare_none]. cbn [served]. split; [|exact Hsv]. unfold sma_nodes. rewrite Eu. cbn [mbind option_bind]. rewrite E4. reflexivity.
  - destruct IH as (t & u & [G Hok] & Hts & Htu & Eu & Hsv & Hn). destruct (nok_alloc _ _ _ Hok) as [[E2 _]|(b & t' & G' & E2 & _)].
    + destruct (mono_allocate n _ _ _ _ Hts E2) as (s' & E3 & Hs'). rewrite E in E3. injection E3 as <-. exists t, u. split; [eauto|]. split; [exact Hs'|]. repeat split; auto; apply Htu.
    + destruct (mono_allocate n _ _ _ _ Hts E2) as (s' & E3 & _). congruence.
  - destruct IH as (t & u & [G Hok] & Hts & Htu & Eu & Hsv & Hn). destruct (nok_dealloc _ _ _ _ Hok Ha) as (t' & G' & E2 & Hok').
    destruct (mono_deallocate _ n _ _ _ _ Hts E2) as (s' & E3 & Hs'). rewrite E in E3. injection E3 as -> ->.
    destruct (mono_deallocate _ n _ _ _ _ Htu E2) as (u' & E4 & Hu'). exists (bare (nled (Gave a :: log)) t'), u'.
    split; [exists G'; destruct Hok' as [H1 H2]; split; [apply bare_ok, H1|exact H2]|]. split; [apply bare_sub, Hs'|]. split; [apply bare_sub, Hu'|].
    split; [cbn [sma_after]; rewrite Eu; cbn [mbind option_bind]; rewrite E4; reflexivity|].
    split; [cbn [served]; auto|intros x; apply bare_none].
  - destruct IH as (t & u & [G Hok] & Hts & Htu & Eu & Hsv & Hn). exists t, u. split; [eauto|]. split; [|repeat split; auto; apply Htu].
    unfold user_write, wr_word in E. destruct (in_pool MEM x); [|discriminate]. injection E as <-. destruct Hts as (S1 & S2 & S3). split; [exact S1|]. split; [exact S2|]. cbn [m_mem].
    apply insert_subseteq_r; [|exact S3]. apply Hn. eapply (owned_word MEM MAX HP); [apply Hok| |exact Hx8]. exists (Z.of_nat a), n. split; [apply nled_in, Ha|exact Hx].
Qed.
Theorem runs_answers log st : sma_runs MEM MAX n log st -> served pol log /\
  exists p st', allocate MEM MAX n st = Ok (p, st') /\ Z.to_nat <$> p = pol log.
Proof.
  intros (t & u & [G Hok] & Hts & Htu & Eu & Hsv & _)%runs_core. split; [exact Hsv|]. unfold sma_nodes. rewrite Eu. cbn [mbind option_bind].
  destruct (nok_alloc _ _ _ Hok) as [[E2 _]|(b & t' & G' & E2 & _)];
    destruct (mono_allocate n _ _ _ _ Hts E2) as (s' & E3 & _); destruct (mono_allocate n _ _ _ _ Htu E2) as (u' & E4 & _); rewrite E3, E4; eauto.
Qed.

(** ** A shared pool *)
Lemma shared_reach log st led : sma_shared MEM MAX n log st led -> reach MEM MAX st led /\ forall a, a ∈ al_live log -> led !! Z.of_nat a = Some n.
Proof.
  assert (Hget : forall st led m a st', reach MEM MAX st led -> 0 < m -> m + 8 <= INT_MAX -> allocate MEM MAX m st = Ok (Some a, st') -> 0 <= a /\ led !! a = None).
  { intros st1 led1 m a st1' HR Hm Hm8 E. destruct (reach_ok MEM MAX HP _ _ HR) as [G Hok].
    destruct (alloc_step MEM MAX HP _ _ _ m Hok Hm Hm8) as [[E2 _]|(b & d & R & G' & st2 & E1 & _ & _ & Hfr & E2 & _)]; rewrite E2 in E; [discriminate|]. injection E as <- <-.
    split; [|exact Hfr]. destruct Hok as (HI & _). apply (block_bounds MEM MAX HP _ _ _ HI b d). apply elem_of_app. left. rewrite E1. left. }
  induction 1 as [|log st led a st' _ [HR IH] E|log st led a b st' _ [HR IH] Ha E|log st led m p st' _ [HR IH] Hm Hm8 E|log st led a m b st' _ [HR IH] Ha Hna E|log st led st' _ [HR IH] E|log st led x w st' _ [HR IH] Ho Hx E].
  - split; [apply reach_init|]. cbn [al_live]. set_solver.
  - destruct (Hget _ _ _ _ _ HR H0 H8 E) as [Hpos Hfr]. split; [exact (reach_alloc MEM MAX _ _ _ _ _ HR H0 H8 E)|]. cbn [al_live]. intros b. rewrite elem_of_union, elem_of_singleton. intros [->|Hb].
    + rewrite Z2Nat.id by exact Hpos. apply lookup_insert.
    + specialize (IH _ Hb). rewrite lookup_insert_ne; [exact IH|congruence].
  - split; [eapply reach_dealloc; [exact HR|exact (IH _ Ha)|exact E]|]. cbn [al_live]. intros c. rewrite elem_of_difference, elem_of_singleton. intros [Hc Hne]. rewrite lookup_delete_ne by lia. exact (IH _ Hc).
  - split; [exact (reach_alloc MEM MAX _ _ _ _ _ HR Hm Hm8 E)|]. intros b Hb. specialize (IH _ Hb). destruct p as [a|]; [|exact IH]. destruct (Hget _ _ _ _ _ HR Hm Hm8 E) as [_ Hfr]. rewrite lookup_insert_ne; [exact IH|congruence].
  - split; [eapply reach_dealloc; [exact HR|exact Ha|exact E]|]. intros c Hc. rewrite lookup_delete_ne; [exact (IH _ Hc)|]. intros ->. rewrite Nat2Z.id in Hna. contradiction.
  - split; [eapply reach_merge; [exact HR|exact E]|exact IH].
  - split; [eapply reach_write; [exact HR|exact Ho|exact Hx|exact E]|exact IH].
Qed.
Lemma shared_fresh log st led p st' : sma_shared MEM MAX n log st led -> allocate MEM MAX n st = Ok (Some p, st') -> Z.to_nat p ∉ al_live log.
Proof.
  intros [HR Hl]%shared_reach E Hin. apply Hl in Hin. destruct (reach_ok MEM MAX HP _ _ HR) as [G Hok].
  destruct (alloc_step MEM MAX HP _ _ _ n Hok H0 H8) as [[E2 _]|(b & d & R & G' & st2 & E1 & _ & _ & Hfr & E2 & _)]; rewrite E2 in E; [discriminate|]. injection E as <- <-.
  destruct Hok as (HI & _). pose proof (block_bounds MEM MAX HP _ _ _ HI b d ltac:(apply elem_of_app; left; rewrite E1; left)) as (Hpos & _). rewrite Z2Nat.id in Hin by exact Hpos. congruence.
Qed.
(** A log is one of a sound policy as soon as only addresses not in use were
    handed out. *)
Fixpoint clean (log : list aev) : Prop :=
  match log with
  | [] => True
  | Got a :: log => a ∉ al_live log /\ clean log
  | Gave a :: log => a ∈ al_live log /\ clean log
  end.
Global Instance aev_eq_dec : EqDecision aev.
Proof. solve_decision. Defined.
Fixpoint replay (log : list aev) (last : option nat) (l : list aev) : option nat :=
  if decide (l = log) then last else
  match log with
  | [] => None
  | Got a :: log => replay log (Some a) l
  | Gave _ :: log => replay log None l
  end.
Lemma replay_longer log : forall last l, (length log < length l)%nat -> replay log last l = None.
Proof.
  induction log as [|[a|a] log IH]; intros last l Hl; cbn [replay length] in *; (destruct (decide _) as [->|]; [cbn [length] in Hl; lia|]); [reflexivity| |]; apply IH; lia.
Qed.
Lemma replay_sound log : forall last, clean log -> (forall a, last = Some a -> a ∉ al_live log) -> forall l a, replay log last l = Some a -> a ∉ al_live l.
Proof.
  induction log as [|[b|b] log IH]; intros last Hc Hlast l a; cbn [replay]; (destruct (decide (l = _)) as [->|]; [intros H; exact (Hlast _ H)|]).
  - discriminate.
  - destruct Hc as [Hb Hc]. intros H. eapply IH; [exact Hc| |exact H]. intros c [= <-]. exact Hb.
  - destruct Hc as [_ Hc]. intros H. eapply IH; [exact Hc| |exact H]. discriminate.
Qed.
Lemma replay_ext log : forall last l x, (length l < length log)%nat -> replay (x :: log) last l = replay log (match x with Got a => Some a | Gave _ => None end) l.
Proof. intros last l x Hl. cbn [replay]. destruct (decide _) as [->|]; [cbn [length] in Hl; lia|]. destruct x; reflexivity. Qed.
Lemma served_ext p q log : (forall l, (length l < length log)%nat -> p l = q l) -> served p log -> served q log.
Proof.
  revert p q. induction log as [|[a|a] log IH]; intros p q He; cbn [served length] in *; [auto| |].
  - intros [H Hs]. split; [rewrite <- He by lia; exact H|]. eapply IH; [|exact Hs]. intros l Hl. apply He. lia.
  - intros [H Hs]. split; [exact H|]. eapply IH; [|exact Hs]. intros l Hl. apply He. lia.
Qed.
Lemma replay_last log last : replay log last log = last.
Proof. destruct log; cbn [replay]; rewrite decide_True; reflexivity. Qed.
Lemma replay_irrel log : forall last last' l, (length l < length log)%nat -> replay log last l = replay log last' l.
Proof. intros last last' l Hl. destruct log as [|x log]; [cbn in Hl; lia|]. cbn [replay]. destruct (decide _) as [->|]; [lia|]. reflexivity. Qed.
Lemma replay_served log : forall last, clean log -> served (replay log last) log.
Proof.
  induction log as [|x log IH]; intros last Hc; [exact I|].
  assert (Hx : forall l, (length l < length (x :: log))%nat -> replay log (match x with Got a => Some a | Gave _ => None end) l = replay (x :: log) last l).
  { intros l Hl. cbn [replay]. destruct (decide (l = x :: log)) as [->|]; [lia|]. destruct x; reflexivity. }
  destruct x as [a|a]; destruct Hc as [Ha Hc]; cbn [served]; (split; [|eapply served_ext; [|apply IH, Hc]; intros l Hl; apply Hx; cbn; lia]); [|exact Ha].
  rewrite <- Hx by (cbn; lia). apply replay_last.
Qed.
Lemma shared_clean log st led : sma_shared MEM MAX n log st led -> clean log.
Proof.
  induction 1 as [|log st led a st' HS IH E|log st led a b st' HS IH Ha E| | | |]; cbn [clean]; try assumption; try exact I.
  - split; [eapply shared_fresh; eassumption|exact IH].
  - split; assumption.
Qed.
Theorem shared_policy log st led p st' : sma_shared MEM MAX n log st led -> allocate MEM MAX n st = Ok (p, st') ->
  exists pl, sound pl /\ served pl log /\ pl log = Z.to_nat <$> p.
Proof.
  intros HS E. pose proof (shared_clean _ _ _ HS) as Hc. exists (replay log (Z.to_nat <$> p)). split; [|split; [apply replay_served, Hc|apply replay_last]].
  intros l a _. apply replay_sound; [exact Hc|]. intros b Hb. destruct p as [q|]; [|discriminate]. injection Hb as <-. eapply shared_fresh; eassumption.
Qed.
End Nodes.
