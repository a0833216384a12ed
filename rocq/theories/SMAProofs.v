(** Blocks, links and the allocator's invariant. *)
From Verif Require Import Base SMAModel SMASpec.
Open Scope Z_scope.

(** ** Rounding *)
Lemma round_up_ok n : n + 8 <= INT_MAX -> round_up n = Some (rounded n).
Proof.
  intros H. unfold round_up, rounded. rewrite (proj2 (Z.ltb_ge _ _)) by lia. f_equal. replace (n + 8 - 1) with (n + 7) by lia.
  change 7 with (Z.ones 3) at 2. rewrite <- Z.ldiff_land, Z.ldiff_ones_r by lia. rewrite Z.shiftl_mul_pow2, Z.shiftr_div_pow2 by lia. reflexivity.
Qed.
Lemma rounded_mod n : rounded n mod 8 = 0.
Proof. apply Z_mod_mult. Qed.
Lemma rounded_bounds n : n <= rounded n < n + 8.
Proof. unfold rounded. pose proof (Z.mul_div_le (n + 7) 8). pose proof (Z.mul_succ_div_gt (n + 7) 8). lia. Qed.
Lemma rounded_id n : n mod 8 = 0 -> rounded n = n.
Proof. intros H. unfold rounded. apply Z_div_exact_full_2 in H; [|lia]. set (q := n / 8) in *. rewrite H. replace (8 * q + 7) with (7 + q * 8) by lia. rewrite Z.div_add by lia. change (7 / 8) with 0. lia. Qed.
Lemma rounded_mono n m : n <= m -> rounded n <= rounded m.
Proof. intros H. unfold rounded. apply Z.mul_le_mono_nonneg_r; [lia|]. apply Z.div_le_mono; lia. Qed.

(** ** Blocks as lists of words *)
Definition bw (b : Z * Z) : list Z := (fun k => b.1 + 8 * Z.of_nat k) <$> seq 0 (Z.to_nat (b.2 / 8)).
Definition words (bs : list (Z * Z)) : list Z := bs ≫= bw.
Definition good (b : Z * Z) : Prop := 0 < b.2 /\ b.2 mod 8 = 0.

Lemma div8 n : n mod 8 = 0 -> exists q, n = 8 * q.
Proof. intros H. exists (n / 8). apply Z_div_exact_full_2; [lia|exact H]. Qed.
Lemma elem_bw a n x : n mod 8 = 0 -> x ∈ bw (a, n) <-> a <= x < a + n /\ (x - a) mod 8 = 0.
Proof.
  intros Hn. destruct (div8 _ Hn) as [q ->]. unfold bw. cbn [fst snd]. rewrite (Z.mul_comm 8 q), Z.div_mul by lia. rewrite elem_of_list_fmap. split.
  - intros (k & -> & Hk). apply elem_of_seq in Hk. split; [lia|]. replace (a + 8 * Z.of_nat k - a) with (Z.of_nat k * 8) by lia. apply Z_mod_mult.
  - intros [H1 H2]. destruct (div8 _ H2) as [k Hk]. exists (Z.to_nat k). split; [lia|]. apply elem_of_seq. lia.
Qed.
Lemma bw_first a n : good (a, n) -> a ∈ bw (a, n).
Proof. intros [H1 H2]. cbn [snd] in *. apply elem_bw; [exact H2|]. rewrite Z.sub_diag. split; [lia|reflexivity]. Qed.
Lemma bw_second a n : good (a, n) -> 16 <= n -> a + 8 ∈ bw (a, n).
Proof. intros [H1 H2] H. cbn [snd] in *. apply elem_bw; [exact H2|]. replace (a + 8 - a) with 8 by lia. split; [lia|reflexivity]. Qed.
Lemma bw_app a n m : 0 <= n -> n mod 8 = 0 -> 0 <= m -> bw (a, n + m) = bw (a, n) ++ bw (a + n, m).
Proof.
  intros Hn H8 Hm. destruct (div8 _ H8) as [q ->]. unfold bw. cbn [fst snd]. replace (8 * q + m) with (m + q * 8) by lia. rewrite Z.div_add by lia.
  rewrite (Z.mul_comm 8 q), Z.div_mul by lia. assert (0 <= m / 8) by (apply Z.div_pos; lia). rewrite Z2Nat.inj_add by lia. rewrite Nat.add_comm, seq_app, fmap_app. f_equal.
  rewrite Nat.add_0_l. replace (Z.to_nat q) with (Z.to_nat q + 0)%nat at 1 by lia. rewrite <- fmap_add_seq, <- list_fmap_compose. apply list_fmap_ext. intros i x _. cbn. lia.
Qed.
Lemma bw_length b : good b -> 8 * Z.of_nat (length (bw b)) = b.2.
Proof. intros [H1 H2]. unfold bw. rewrite fmap_length, seq_length. destruct (div8 _ H2) as [q Hq]. rewrite Hq, (Z.mul_comm 8 q), Z.div_mul by lia. lia. Qed.
Lemma words_cons b bs : words (b :: bs) = bw b ++ words bs.
Proof. reflexivity. Qed.
Lemma words_app b c : words (b ++ c) = words b ++ words c.
Proof. unfold words. apply bind_app. Qed.
Global Instance words_perm : Proper ((≡ₚ) ==> (≡ₚ)) words.
Proof. intros x y H. unfold words. apply bind_Permutation. exact H. Qed.
Lemma elem_words x bs : x ∈ words bs <-> exists b, b ∈ bs /\ x ∈ bw b.
Proof. unfold words. rewrite elem_of_list_bind. split; intros (b & H1 & H2); exists b; auto. Qed.
Lemma NoDup_bw b : NoDup (bw b).
Proof. unfold bw. apply NoDup_fmap_2; [intros x y; lia|apply NoDup_seq]. Qed.

(** ** Links *)
Global Instance loc_eq_dec : EqDecision loc.
Proof. solve_decision. Defined.
Definition lastloc (l : loc) (xs : list Z) : loc := match last xs with Some a => Blk a | None => l end.
Fixpoint seg (f : loc -> option (option Z)) (l : loc) (xs : list Z) : Prop :=
  match xs with [] => True | a :: xs => f l = Some (Some a) /\ seg f (Blk a) xs end.
Definition links (f : loc -> option (option Z)) (l : loc) (xs : list Z) : Prop := seg f l xs /\ f (lastloc l xs) = Some None.
Lemma lastloc_cons l a xs : lastloc l (a :: xs) = lastloc (Blk a) xs.
Proof. unfold lastloc. rewrite last_cons. destruct (last xs); reflexivity. Qed.
Lemma lastloc_snoc l a xs : lastloc l (xs ++ [a]) = Blk a.
Proof. unfold lastloc. rewrite last_snoc. reflexivity. Qed.
Lemma lastloc_app l xs ys : lastloc l (xs ++ ys) = lastloc (lastloc l xs) ys.
Proof. revert l. induction xs as [|a xs IH]; intros l; [reflexivity|]. cbn [app]. rewrite !lastloc_cons. apply IH. Qed.
Lemma seg_app f l xs ys : seg f l (xs ++ ys) <-> seg f l xs /\ seg f (lastloc l xs) ys.
Proof. revert l. induction xs as [|a xs IH]; intros l; [simpl; tauto|]. cbn [app seg]. rewrite IH, lastloc_cons. tauto. Qed.
Lemma links_app f l xs ys : links f l (xs ++ ys) <-> seg f l xs /\ links f (lastloc l xs) ys.
Proof. unfold links. rewrite seg_app, lastloc_app. tauto. Qed.
Lemma links_cons f l a xs : links f l (a :: xs) <-> f l = Some (Some a) /\ links f (Blk a) xs.
Proof. unfold links. rewrite lastloc_cons. cbn [seg]. tauto. Qed.
Lemma links_nil f l : links f l [] <-> f l = Some None.
Proof. unfold links, lastloc. cbn. tauto. Qed.
Lemma seg_ext f f' l xs : (forall l', l' = l \/ (exists a, l' = Blk a /\ a ∈ xs) -> f' l' = f l') -> seg f l xs -> seg f' l xs.
Proof.
  revert l. induction xs as [|a xs IH]; intros l H; [auto|]. intros [H1 H2]. split; [rewrite H; auto|]. apply IH; [|exact H2].
  intros l' [->|(b & -> & Hb)]; apply H; right; eexists; (split; [reflexivity|]); [left|right; exact Hb].
Qed.
Lemma lastloc_in l xs : lastloc l xs = l \/ exists a, lastloc l xs = Blk a /\ a ∈ xs.
Proof. unfold lastloc. destruct (last xs) as [a|] eqn:E; [right|left; reflexivity]. exists a. split; [reflexivity|]. apply last_Some_elem_of in E. exact E. Qed.
Lemma links_ext f f' l xs : (forall l', l' = l \/ (exists a, l' = Blk a /\ a ∈ xs) -> f' l' = f l') -> links f l xs -> links f' l xs.
Proof. intros H [H1 H2]. split; [eapply seg_ext; eassumption|]. rewrite H; [exact H2|apply lastloc_in]. Qed.
(** The locations a segment reads: all but its last one. *)
Lemma seg_ext_open f f' i xs : NoDup xs -> (forall l', l' <> lastloc (Head i) xs -> f' l' = f l' \/ False) -> seg f (Head i) xs -> seg f' (Head i) xs.
Proof.
  intros Hnd H. assert (Hgen : forall ys zs, xs = ys ++ zs -> seg f (lastloc (Head i) ys) zs -> seg f' (lastloc (Head i) ys) zs).
  { intros ys zs; revert ys. induction zs as [|a zs IH]; intros ys E; [auto|]. intros [H1 H2]. split.
    - destruct (H (lastloc (Head i) ys)) as [->|[]]; [|exact H1]. rewrite E, lastloc_app, lastloc_cons. rewrite E in Hnd.
      apply NoDup_app in Hnd as (_ & Hd & Hnd). destruct (lastloc_in (Head i) ys) as [->|(b & -> & Hb)].
      + destruct (lastloc_in (Blk a) zs) as [->|(c & -> & _)]; discriminate.
      + specialize (Hd b Hb). destruct (lastloc_in (Blk a) zs) as [->|(c & -> & Hc)]; intros [= ->]; apply Hd; [left|right; exact Hc].
    - specialize (IH (ys ++ [a])). rewrite lastloc_snoc in IH. apply IH; [rewrite <- app_assoc; exact E|exact H2]. }
  apply (Hgen [] xs eq_refl).
Qed.
Lemma links_del f f' i pre a suf : NoDup (pre ++ a :: suf) -> links f (Head i) (pre ++ a :: suf) ->
  f' (lastloc (Head i) pre) = f (Blk a) -> (forall l', l' <> lastloc (Head i) pre -> f' l' = f l') -> links f' (Head i) (pre ++ suf).
Proof.
  intros Hnd Hl H1 H2. apply links_app in Hl as [Hs Hl]. apply links_cons in Hl as [Ha Hl]. apply NoDup_app in Hnd as (Hnp & Hd & Hnd). apply NoDup_cons in Hnd as [Hna Hnd].
  apply links_app. split; [eapply seg_ext_open; [exact Hnp| |exact Hs]; intros l' Hne; left; apply H2, Hne|].
  assert (Hout : forall b, b ∈ suf -> Blk b <> lastloc (Head i) pre).
  { intros b Hb. destruct (lastloc_in (Head i) pre) as [->|(c & -> & Hc)]; [discriminate|]. intros [= ->]. apply (Hd c Hc). right. exact Hb. }
  destruct suf as [|b suf]; [apply links_nil in Hl; apply links_nil; rewrite H1; exact Hl|]. apply links_cons in Hl as [Hb Hl]. apply links_cons. split; [rewrite H1; exact Hb|].
  eapply links_ext; [|exact Hl]. intros l' [->|(c & -> & Hc)]; apply H2, Hout; [left|right; exact Hc].
Qed.
Lemma links_ins f f' i pre a suf : NoDup (pre ++ suf) -> a ∉ pre ++ suf -> links f (Head i) (pre ++ suf) ->
  f' (lastloc (Head i) pre) = Some (Some a) -> f' (Blk a) = f (lastloc (Head i) pre) ->
  (forall l', l' <> lastloc (Head i) pre -> l' <> Blk a -> f' l' = f l') -> links f' (Head i) (pre ++ a :: suf).
Proof.
  intros Hnd Hna Hl H1 H2 H3. apply links_app in Hl as [Hs Hl]. apply NoDup_app in Hnd as (Hnp & Hd & Hnd). rewrite elem_of_app in Hna.
  apply links_app. split.
  - eapply (seg_ext_open (fun l => if decide (l = Blk a) then f' l else f l)); [exact Hnp| |].
    + intros l' Hne. left. destruct (decide (l' = Blk a)); [reflexivity|]. apply H3; assumption.
    + eapply seg_ext; [|exact Hs]. intros l' Hl'. rewrite decide_False; [reflexivity|]. destruct Hl' as [->|(c & -> & Hc)]; [discriminate|]. intros [= ->]. apply Hna. left. exact Hc.
  - apply links_cons. split; [exact H1|].
    assert (Hout : forall b, b ∈ suf -> Blk b <> lastloc (Head i) pre /\ Blk b <> Blk a).
    { intros b Hb. split; [|intros [= ->]; apply Hna; right; exact Hb]. destruct (lastloc_in (Head i) pre) as [->|(c & -> & Hc)]; [discriminate|]. intros [= ->]. apply (Hd c Hc). exact Hb. }
    destruct suf as [|b suf]; [apply links_nil in Hl; apply links_nil; rewrite H2; exact Hl|]. apply links_cons in Hl as [Hb Hl]. apply links_cons. split; [rewrite H2; exact Hb|].
    eapply links_ext; [|exact Hl]. intros l' [->|(c & -> & Hc)]; apply H3; apply Hout; first [left|right; exact Hc].
Qed.
