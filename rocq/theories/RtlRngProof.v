(** Proofs about the RTL Sobol generator, multipliers, scaled adders and multiply-accumulate unit. *)
From Coq Require Import Permutation Lqa.
Require Import Verif.BaseLemmas Verif.GenModel Verif.AddModel Verif.KernelModel Verif.LinearModel Verif.RtlModel.
Require Import Verif.GenProof Verif.SobolProof Verif.AddProof Verif.KernelProof Verif.LinearProof Verif.RtlProof.
Open Scope Z_scope.

(** ** Least significant zero *)
Lemma lsz_pos_bits p : (forall i, (i < lsz_pos p)%nat -> Z.testbit (Zpos p) (Z.of_nat i) = true) /\
  Z.testbit (Zpos p) (Z.of_nat (lsz_pos p)) = false.
Proof.
  induction p as [p [IH1 IH2]|p _|]; cbn [lsz_pos].
  - split.
    + intros [|i] Hi; [reflexivity|]. rewrite Nat2Z.inj_succ. rewrite Pos2Z.inj_xI, Z.testbit_odd_succ by lia. apply IH1. lia.
    + rewrite Nat2Z.inj_succ, Pos2Z.inj_xI, Z.testbit_odd_succ by lia. exact IH2.
  - split; [intros i Hi; lia|reflexivity].
  - split; [|reflexivity]. intros [|i] Hi; [reflexivity|lia].
Qed.

Lemma lsz_bits n : (forall i, (i < lsz n)%nat -> Z.testbit (Z.of_N n) (Z.of_nat i) = true) /\
  Z.testbit (Z.of_N n) (Z.of_nat (lsz n)) = false.
Proof.
  destruct n as [|p]; [split; [cbn; lia|reflexivity]|]. exact (lsz_pos_bits p).
Qed.

Lemma lsz_inacc_spec n i : lsz_inacc (Z.of_N n) i = (lsz n <=? i)%nat.
Proof.
  destruct (lsz_bits n) as [H1 H2]. induction i as [|i IH]; cbn [lsz_inacc].
  - destruct (lsz n) as [|k] eqn:E; [change (Z.of_nat 0) with 0 in H2; rewrite H2; reflexivity|].
    pose proof (H1 0%nat ltac:(lia)) as H0. change (Z.of_nat 0) with 0 in H0. rewrite H0. reflexivity.
  - rewrite IH. destruct (Nat.leb_spec (lsz n) i) as [L|L]; [destruct (Nat.leb_spec (lsz n) (S i)); [reflexivity|lia]|].
    destruct (Nat.leb_spec (lsz n) (S i)) as [L'|L'].
    + replace (S i) with (lsz n) by lia. rewrite H2. reflexivity.
    + rewrite H1 by lia. reflexivity.
Qed.

Lemma lsz_outoh_spec n i : lsz_outoh (Z.of_N n) i = (i =? lsz n)%nat.
Proof.
  destruct i as [|i]; unfold lsz_outoh; rewrite !lsz_inacc_spec.
  - destruct (lsz n); reflexivity.
  - destruct (Nat.leb_spec (lsz n) i), (Nat.leb_spec (lsz n) (S i)), (Nat.eqb_spec (S i) (lsz n)); try reflexivity; lia.
Qed.

Lemma onehot_word j w : zsum (map (fun i => b2z (i =? j)%nat * p2 i) (seq 0 w)) = if (j <? w)%nat then p2 j else 0.
Proof.
  induction w as [|w IH]; [reflexivity|]. rewrite seq_S, map_app, zsum_app, IH. cbn [map zsum Nat.add].
  destruct (Nat.eqb_spec w j) as [E|E]; destruct (Nat.ltb_spec j w), (Nat.ltb_spec j (S w)); cbn [b2z]; try lia.
  subst w. lia.
Qed.

Lemma find_seq (f : nat -> bool) n : forall a j, (a <= j < a + n)%nat -> f j = true ->
  (forall i, (i < j)%nat -> f i = false) -> find f (seq a n) = Some j.
Proof.
  induction n as [|n IH]; intros a j Hj Hf Hn; [lia|]. cbn [seq find].
  destruct (Nat.eq_dec a j) as [->|E]; [rewrite Hf; reflexivity|]. rewrite Hn by lia. apply IH; [lia|assumption..].
Qed.

Lemma p2_inj a b : p2 a = p2 b -> a = b.
Proof. intros H. unfold p2 in H. apply Z.pow_inj_r in H; lia. Qed.

Lemma lsz_rtl_spec w n : lsz_rtl w (Z.of_N n) = if (lsz n <? w)%nat then lsz n else 0%nat.
Proof.
  unfold lsz_rtl.
  assert (E : map (fun i => b2z (lsz_outoh (Z.of_N n) i) * p2 i) (seq 0 w) = map (fun i => b2z (i =? lsz n)%nat * p2 i) (seq 0 w)).
  { apply map_ext. intros i. rewrite lsz_outoh_spec. reflexivity. }
  rewrite E, onehot_word. destruct (Nat.ltb_spec (lsz n) w) as [L|L].
  - rewrite (find_seq _ w 0 (lsz n)); [reflexivity|lia|apply Z.eqb_refl|].
    intros i Hi. apply Z.eqb_neq. intros H. apply p2_inj in H. lia.
  - destruct (find _ _) as [i|] eqn:F; [|reflexivity]. apply find_some in F. destruct F as [_ F].
    apply Z.eqb_eq in F. pose proof (p2_pos i). lia.
Qed.

(** ** The generator *)
Lemma sob_last V k : sob V (2 ^ S k - 1) = V k.
Proof.
  induction k as [|k IH]; [reflexivity|].
  assert (E : (2 ^ S (S k) - 1 = 1 * 2 ^ S k + (2 ^ S k - 1))%nat).
  { pose proof (Nat.pow_nonzero 2 (S k) ltac:(lia)). rewrite (Nat.pow_succ_r' 2 (S k)). lia. }
  rewrite E, sob_block, IH.
  2:{ pose proof (Nat.pow_nonzero 2 (S k) ltac:(lia)). lia. }
  rewrite Nat.mul_1_l. pose proof (Nat.pow_nonzero 2 (S k) ltac:(lia)) as Hn.
  replace (2 ^ S k)%nat with (S (2 ^ S k - 1)) at 1 by lia. cbn [sob]. rewrite IH.
  replace (N.of_nat (2 ^ S k - 1)) with (2 ^ N.of_nat (S k) - 1)%N by (rewrite <- pow2_nat_N; lia).
  rewrite lsz_all_ones. rewrite (Z.lxor_comm (V k)), Z.lxor_assoc, Z.lxor_nilpotent, Z.lxor_0_r. reflexivity.
Qed.

(** k enabled clocks: counter and point, with the period's translation. *)
Definition sob_flip (w : nat) (p : nat) : Z := if Nat.odd p then Z.lxor 1 (p2 (w - 1)) else 0.
Definition sob_at (w k : nat) : Z := Z.lxor (sob (dirvec_dim1 w) (k mod 2 ^ w)) (sob_flip w (k / 2 ^ w)).

Lemma sob_at_S w k : (1 <= w)%nat ->
  sob_at w (S k) = Z.lxor (sob_at w k) (dirvec_dim1 w (lsz_rtl w (Z.of_nat (k mod 2 ^ w)))).
Proof.
  intros Hw. pose proof (Nat.pow_nonzero 2 w ltac:(lia)) as Hn.
  pose proof (Nat.mod_upper_bound k (2 ^ w) Hn) as Hm. set (m := (k mod 2 ^ w)%nat) in *.
  set (q := (k / 2 ^ w)%nat). assert (Ek : k = (2 ^ w * q + m)%nat) by (apply Nat.div_mod; exact Hn).
  rewrite <- nat_N_Z, lsz_rtl_spec. unfold sob_at. fold m q.
  destruct (Nat.eq_dec m (2 ^ w - 1)) as [E|E].
  - assert (E1 : ((S k) mod 2 ^ w = 0)%nat).
    { symmetry. apply (Nat.mod_unique _ _ (S q)); [lia|]. rewrite Nat.mul_succ_r. lia. }
    assert (E2 : ((S k) / 2 ^ w = S q)%nat).
    { symmetry. apply (Nat.div_unique _ _ _ 0%nat); [lia|]. rewrite Nat.mul_succ_r. lia. }
    rewrite E1, E2, E. cbn [sob].
    assert (El : lsz (N.of_nat (2 ^ w - 1)) = w).
    { replace (N.of_nat (2 ^ w - 1)) with (2 ^ N.of_nat w - 1)%N by (rewrite <- pow2_nat_N; lia). apply lsz_all_ones. }
    rewrite El, Nat.ltb_irrefl. destruct w as [|w]; [lia|]. rewrite sob_last.
    unfold dirvec_dim1, sob_flip. rewrite Nat.odd_succ, <- Nat.negb_odd.
    replace (S w - 1 - w)%nat with 0%nat by lia. replace (S w - 1 - 0)%nat with (S w - 1)%nat by lia. change (p2 0) with 1.
    set (c := p2 (S w - 1)). destruct (Nat.odd q); cbn [negb].
    + rewrite <- !Z.lxor_assoc, Z.lxor_nilpotent, ?Z.lxor_0_l, Z.lxor_nilpotent. reflexivity.
    + rewrite ?Z.lxor_0_l, ?Z.lxor_0_r. reflexivity.
  - assert (E1 : ((S k) mod 2 ^ w = S m)%nat) by (symmetry; apply (Nat.mod_unique _ _ q); lia).
    assert (E2 : ((S k) / 2 ^ w = q)%nat) by (symmetry; apply (Nat.div_unique _ _ _ (S m)); lia).
    rewrite E1, E2. cbn [sob].
    assert (Hl : (lsz (N.of_nat m) < w)%nat) by (apply lsz_lt; rewrite nat_N_Z, <- p2_nat; lia).
    destruct (Nat.ltb_spec (lsz (N.of_nat m)) w); [|lia].
    rewrite !Z.lxor_assoc. f_equal. apply Z.lxor_comm.
Qed.

Definition ncnt (es : list Z) : nat := Z.to_nat (ones es).

Lemma sobol_rtl_final w es : (1 <= w)%nat -> bits es ->
  final (sobol_rtl w) sobol_rtl_init es = (Z.of_nat (ncnt es mod 2 ^ w), sob_at w (ncnt es)).
Proof.
  intros Hw. pose proof (Nat.pow_nonzero 2 w ltac:(lia)) as Hn.
  induction es as [|e es IH] using rev_ind; intros Hb.
  - unfold ncnt, sob_at. change (Z.to_nat (ones [])) with 0%nat. rewrite Nat.mod_0_l, Nat.div_0_l by exact Hn. reflexivity.
  - apply bits_snoc in Hb. destruct Hb as [Hb He]. rewrite final_snoc, (IH Hb).
    assert (Ek : ncnt (es ++ [e]) = (ncnt es + Z.to_nat e)%nat).
    { unfold ncnt. rewrite ones_snoc by exact He. apply to_nat_snoc; [apply ones_nonneg|exact He]. }
    rewrite Ek. unfold sobol_rtl. cbn [fst]. destruct He as [->| ->].
    + change (Z.to_nat 0) with 0%nat. rewrite Nat.add_0_r. cbn [Z.eqb]. rewrite Z.add_0_r.
      rewrite trunc_id; [reflexivity|]. pose proof (Nat.mod_upper_bound (ncnt es) (2 ^ w) Hn) as Hm.
      rewrite <- p2_nat. lia.
    + change (Z.to_nat 1) with 1%nat. rewrite Nat.add_1_r, sob_at_S by exact Hw. cbn [Z.eqb Pos.eqb]. f_equal.
      unfold trunc. rewrite <- p2_nat. change 1 with (Z.of_nat 1) at 1. rewrite <- Nat2Z.inj_add, <- Nat2Z.inj_mod.
      f_equal. rewrite Nat.add_mod_idemp_l by exact Hn. f_equal. lia.
Qed.

Lemma sobol_rtl_nth w es t : (1 <= w)%nat -> bits es -> (t < length es)%nat ->
  nth t (outs (sobol_rtl w) sobol_rtl_init es) 0 = sob_at w (ncnt (firstn t es)).
Proof.
  intros Hw Hb Ht. rewrite (outs_nth _ _ es t 0 0 Ht), sobol_rtl_final by (try exact Hw; apply bits_firstn, Hb). reflexivity.
Qed.

(** ** Against torch's sequence *)
Definition torch_dim1 (ext : rng_ext) : Prop := forall j, (j < 30)%nat -> ext_dirvec ext 1 j = p2 (29 - j).

Lemma sob_div V V' s n : (forall j, (2 ^ j <= n)%nat -> V j / 2 ^ Z.of_nat s = V' j) ->
  forall i, (i <= n)%nat -> sob V i / 2 ^ Z.of_nat s = sob V' i.
Proof.
  intros H. induction i as [|i IH]; intros Hi; [reflexivity|]. cbn [sob].
  rewrite lxor_top by lia. rewrite IH by lia. f_equal. apply H.
  assert (Hl : Z.of_N (N.of_nat i) mod p2 (S (lsz (N.of_nat i))) = p2 (lsz (N.of_nat i)) - 1) by apply lsz_spec.
  rewrite nat_N_Z in Hl. pose proof (p2_pos (S (lsz (N.of_nat i)))) as Hp.
  pose proof (Z.mod_le (Z.of_nat i) (p2 (S (lsz (N.of_nat i)))) ltac:(lia) Hp) as Hle. rewrite Hl, <- p2_nat in Hle. lia.
Qed.

Lemma torch_seq_nth ext w i : (w <= 30)%nat -> torch_dim1 ext -> (i < 2 ^ w)%nat ->
  nth i (rng_seq ext KSobol w 1) 0 = sob (dirvec_dim1 w) i.
Proof.
  intros Hw He Hi. rewrite rng_sobol by exact Hw.
  set (f := sobw sobol_maxbit (ext_dirvec ext 1) w).
  rewrite (nth_indep _ 0 (f 0%nat)) by (rewrite map_length, seq_length; exact Hi).
  rewrite map_nth, seq_nth by exact Hi. cbn [Nat.add]. unfold f, sobw, sobol_maxbit, p2.
  apply (sob_div _ _ _ (2 ^ w - 1)); [|lia].
  intros j Hj. assert (Hjw : (j < w)%nat).
  { destruct (Nat.lt_ge_cases j w) as [L|G]; [exact L|]. pose proof (Nat.pow_le_mono_r 2 w j ltac:(lia) G).
    pose proof (Nat.pow_nonzero 2 w ltac:(lia)). lia. }
  rewrite He by lia. unfold dirvec_dim1. fold (p2 (30 - w)).
  replace (29 - j)%nat with ((w - 1 - j) + (30 - w))%nat by lia. rewrite p2_add.
  apply Z.div_mul. pose proof (p2_pos (30 - w)). lia.
Qed.

Lemma torch_seq_length ext w : (w <= 30)%nat -> length (rng_seq ext KSobol w 1) = (2 ^ w)%nat.
Proof. intros Hw. rewrite rng_sobol by exact Hw. rewrite map_length, seq_length. reflexivity. Qed.

(** The generator's values on every clock. *)
Lemma sobol_rtl_values ext w es t : (1 <= w <= 30)%nat -> torch_dim1 ext -> bits es -> (t < length es)%nat ->
  let k := Z.to_nat (ones (firstn t es)) in
  nth t (outs (sobol_rtl w) sobol_rtl_init es) 0 =
  Z.lxor (cyc (rng_seq ext KSobol w 1) k) (if Nat.odd (k / 2 ^ w) then Z.lxor 1 (p2 (w - 1)) else 0).
Proof.
  intros Hw He Hb Ht k. rewrite sobol_rtl_nth by (try assumption; lia). unfold sob_at, cyc, sob_flip.
  fold (ncnt (firstn t es)) in k. fold k. rewrite torch_seq_length by lia.
  rewrite torch_seq_nth; [reflexivity|lia|exact He|]. apply Nat.mod_upper_bound, Nat.pow_nonzero. lia.
Qed.

Lemma dirvec_dim1_ok w : dirvec_ok w (dirvec_dim1 w).
Proof.
  intros j Hj. exists 1. split; [unfold dirvec_dim1; lia|]. split; [reflexivity|].
  rewrite p2_S. pose proof (p2_ge_1 j). lia.
Qed.

Lemma lxor_lt w a b : 0 <= a < p2 w -> 0 <= b < p2 w -> 0 <= Z.lxor a b < p2 w.
Proof.
  intros Ha Hb. assert (Hn : 0 <= Z.lxor a b) by (apply Z.lxor_nonneg; lia). split; [exact Hn|].
  apply bits_lt; [exact Hn|]. intros i Hi. rewrite Z.lxor_spec.
  assert (F : forall x, 0 <= x < p2 w -> Z.testbit x i = false).
  { intros x Hx. destruct (Z.eq_dec x 0) as [->|]; [apply Z.testbit_0_l|].
    apply Z.bits_above_log2; [lia|]. apply Z.log2_lt_pow2; [lia|]. unfold p2 in Hx.
    apply Z.lt_le_trans with (2 ^ Z.of_nat w); [lia|]. apply Z.pow_le_mono_r; lia. }
  rewrite !F by assumption. reflexivity.
Qed.

Lemma sob_flip_range w p : (1 <= w)%nat -> 0 <= sob_flip w p < p2 w.
Proof.
  intros Hw. unfold sob_flip. pose proof (p2_pos w). destruct (Nat.odd p); [|lia].
  destruct w as [|w]; [lia|]. replace (S w - 1)%nat with w by lia.
  destruct w as [|w]; [cbn; lia|].
  apply lxor_lt; rewrite !p2_S; pose proof (p2_pos w); lia.
Qed.

(** Each period of enabled clocks still visits every value once. *)
Lemma sob_at_period w p : (1 <= w)%nat -> Permutation (map (fun i => sob_at w (p * 2 ^ w + i)) (seq 0 (2 ^ w))) (zrange (2 ^ w)).
Proof.
  intros Hw. pose proof (Nat.pow_nonzero 2 w ltac:(lia)) as Hn.
  assert (E : forall i, (i < 2 ^ w)%nat -> sob_at w (p * 2 ^ w + i) = Z.lxor (sob (dirvec_dim1 w) i) (sob_flip w p)).
  { intros i Hi. unfold sob_at. rewrite (Nat.add_comm (p * 2 ^ w)), Nat.mod_add, Nat.div_add by exact Hn.
    rewrite Nat.mod_small, Nat.div_small by exact Hi. reflexivity. }
  apply nodup_range_perm.
  - apply NoDup_map_in; [|apply seq_NoDup]. intros i j Hi Hj H. apply in_seq in Hi, Hj.
    rewrite !E in H by lia. rewrite !(Z.lxor_comm _ (sob_flip w p)) in H. apply lxor_inj_r in H.
    apply (sob_inj w (dirvec_dim1 w) (dirvec_dim1_ok w) w) in H; lia.
  - rewrite map_length, seq_length. reflexivity.
  - intros x Hx. apply in_map_iff in Hx. destruct Hx as (i & <- & Hi). apply in_seq in Hi. rewrite E by lia.
    rewrite p2_nat. apply lxor_lt; [|apply sob_flip_range, Hw]. split.
    + apply (sob_nonneg w _ (dirvec_dim1_ok w)). lia.
    + apply (sob_lt w _ (dirvec_dim1_ok w)). lia.
Qed.

(** ** Multipliers *)
Lemma umul_uni_outs w B r (xs : list (Z * Z)) :
  outs (umul_uni w) (B, r) (map (fun p => (fst p, snd p, 0)) xs) =
  map2 (fun x s => Z.land x (b2z (B >? s))) (map fst xs) (outs (sobol_rtl w) r (map fst xs)).
Proof.
  revert r. induction xs as [|[x y] xs IH]; intros r; [reflexivity|]. cbn [map fst snd]. rewrite !outs_cons. cbn [map2].
  assert (E : umul_uni w (B, r) (x, y, 0) = ((B, fst (sobol_rtl w r x)), Z.land x (b2z (B >? snd (sobol_rtl w r x))))).
  { unfold umul_uni. destruct (sobol_rtl w r x) as [r' s]. reflexivity. }
  rewrite E. cbn [fst snd]. f_equal. apply IH.
Qed.

Lemma umul_bi_outs w B r v (xs : list (Z * Z)) :
  outs (umul_bi w) (B, (r, v)) (map (fun p => (fst p, snd p, 0)) xs) =
  map2 (fun x s => Z.lor (Z.land x (b2z (B >? fst s))) (Z.land (1 - x) (b2z (B <=? snd s)))) (map fst xs)
    (map2 pair (outs (sobol_rtl w) r (map fst xs)) (outs (sobol_rtl w) v (map (fun x => 1 - x) (map fst xs)))).
Proof.
  revert r v. induction xs as [|[x y] xs IH]; intros r v; [reflexivity|]. cbn [map fst snd]. rewrite !outs_cons. cbn [map2].
  assert (E : umul_bi w (B, (r, v)) (x, y, 0) = ((B, (fst (sobol_rtl w r x), fst (sobol_rtl w v (1 - x)))),
     Z.lor (Z.land x (b2z (B >? snd (sobol_rtl w r x)))) (Z.land (1 - x) (b2z (B <=? snd (sobol_rtl w v (1 - x))))))).
  { unfold umul_bi, bnot. destruct (sobol_rtl w r x) as [r' s]. destruct (sobol_rtl w v (1 - x)) as [v' s']. reflexivity. }
  rewrite E. cbn [fst snd]. f_equal. apply IH.
Qed.

Lemma map2_nth' {A B C} (f : A -> B -> C) xs ys t da db dc : length xs = length ys -> (t < length xs)%nat ->
  nth t (map2 f xs ys) dc = f (nth t xs da) (nth t ys db).
Proof.
  revert ys t. induction xs as [|x xs IH]; intros [|y ys] [|t] Hl Ht; cbn [length] in *; try lia; try discriminate; [reflexivity|].
  cbn [map2 nth]. apply IH; lia.
Qed.

Lemma ones_firstn_lt xs t : bits xs -> (t < length xs)%nat -> nth t xs 0 = 1 -> ones (firstn t xs) < ones xs.
Proof.
  intros Hb Ht H. rewrite <- (firstn_skipn (S t) xs) at 2. rewrite ones_app, (firstn_S_nth xs t 0 Ht), ones_app, H.
  pose proof (ones_nonneg (skipn (S t) xs)). change (ones [1]) with 1. lia.
Qed.

Lemma zeros_inv xs : bits xs -> ones (map (fun x => 1 - x) xs) = zeros xs /\ bits (map (fun x => 1 - x) xs).
Proof.
  induction xs as [|x xs IH]; intros Hb; [split; [reflexivity|constructor]|].
  destruct (IH (Forall_inv_tail Hb)) as [H1 H2]. pose proof (Forall_inv Hb) as Hx.
  cbn [map]. rewrite ones_cons, zeros_cons, H1. split; [destruct Hx as [->| ->]; reflexivity|].
  constructor; [destruct Hx as [->| ->]; unfold bit; lia|exact H2].
Qed.

Lemma sob_at_first ext w B k : (1 <= w <= 30)%nat -> torch_dim1 ext -> 0 <= k < p2 w ->
  b2z (B >? sob_at w (Z.to_nat k)) = bsgen_bit B (rng_seq ext KSobol w 1) k.
Proof.
  intros Hw He Hk. unfold bsgen_bit, zlen. rewrite torch_seq_length by lia. rewrite p2_nat, Z.mod_small by exact Hk.
  unfold nthZ. assert (Hlt : (Z.to_nat k < 2 ^ w)%nat) by (rewrite <- p2_nat in Hk; lia).
  rewrite torch_seq_nth by (try assumption; lia). do 2 f_equal.
  unfold sob_at. rewrite Nat.mod_small, Nat.div_small by exact Hlt. apply Z.lxor_0_r.
Qed.

Lemma umul_uni_equiv ext w B xs : (1 <= w <= 30)%nat -> torch_dim1 ext -> bits (map fst xs) -> ones (map fst xs) <= p2 w ->
  outs (umul_uni w) (B, sobol_rtl_init) (map (fun p => (fst p, snd p, 0)) xs) =
  outs (fsumul_static_step Unipolar B (rng_seq ext KSobol w 1)) fsumul_static_init (map fst xs).
Proof.
  intros Hw He Hb Ho. rewrite umul_uni_outs. set (l := map fst xs) in *. clearbody l. clear xs.
  apply (list_eq_nth _ _ 0); [rewrite map2_length by (rewrite outs_length; reflexivity); rewrite outs_length; reflexivity|].
  intros t Ht. rewrite map2_length in Ht by (rewrite outs_length; reflexivity).
  rewrite (map2_nth' _ _ _ t 0 0) by (rewrite ?outs_length; auto).
  rewrite mul_static_nth by (try assumption; rewrite torch_seq_length by lia; pose proof (Nat.pow_nonzero 2 w ltac:(lia)); lia).
  rewrite sobol_rtl_nth by (try assumption; lia). rewrite Z.add_0_r.
  destruct (Forall_nth_lt bit l t 0 Hb Ht) as [E|E]; rewrite E; [reflexivity|].
  pose proof (ones_firstn_lt l t Hb Ht E) as Hlt. pose proof (ones_nonneg (firstn t l)) as Hge.
  unfold ncnt. rewrite (sob_at_first ext w B) by (try assumption; lia).
  rewrite land_bit_l; [reflexivity|right; reflexivity|apply bsgen_bit_bit].
Qed.

Lemma umul_bi_equiv ext w B xs : (1 <= w <= 30)%nat -> torch_dim1 ext -> bits (map fst xs) ->
  ones (map fst xs) <= p2 w -> zeros (map fst xs) <= p2 w ->
  outs (umul_bi w) (B, (sobol_rtl_init, sobol_rtl_init)) (map (fun p => (fst p, snd p, 0)) xs) =
  outs (fsumul_static_step Bipolar B (rng_seq ext KSobol w 1)) fsumul_static_init (map fst xs).
Proof.
  intros Hw He Hb Ho Hz. rewrite umul_bi_outs. set (l := map fst xs) in *. clearbody l. clear xs.
  destruct (zeros_inv l Hb) as [Ei Hbi]. set (m := map (fun x => 1 - x) l) in *.
  assert (Lm : length m = length l) by (unfold m; apply map_length).
  assert (Lp : length (map2 pair (outs (sobol_rtl w) sobol_rtl_init l) (outs (sobol_rtl w) sobol_rtl_init m)) = length l)
    by (rewrite map2_length; rewrite !outs_length; auto).
  apply (list_eq_nth _ _ 0); [rewrite map2_length by auto; rewrite outs_length; reflexivity|].
  intros t Ht. rewrite map2_length in Ht by auto.
  rewrite (map2_nth' _ _ _ t 0 (0, 0)) by auto.
  rewrite (map2_nth' pair _ _ t 0 0) by (rewrite !outs_length; auto). cbn [fst snd].
  rewrite mul_static_nth by (try assumption; rewrite torch_seq_length by lia; pose proof (Nat.pow_nonzero 2 w ltac:(lia)); lia).
  rewrite !sobol_rtl_nth by (try assumption; lia).
  assert (Em : nth t m 0 = 1 - nth t l 0).
  { unfold m. rewrite (nth_indep _ 0 (1 - 0)) by (rewrite map_length; exact Ht). apply (map_nth (fun x => 1 - x)). }
  assert (Ef : ones (firstn t m) = zeros (firstn t l)).
  { unfold m. rewrite firstn_map. apply (zeros_inv (firstn t l)), bits_firstn, Hb. }
  destruct (Forall_nth_lt bit l t 0 Hb Ht) as [E|E]; rewrite E.
  - assert (Hlt : ones (firstn t m) < ones m) by (apply ones_firstn_lt; try assumption; lia).
    pose proof (ones_nonneg (firstn t m)) as Hge. rewrite Ei in Hlt.
    unfold ncnt. rewrite Z.land_0_l, Z.lor_0_l. change (1 - 0) with 1.
    assert (Eb : b2z (B <=? sob_at w (Z.to_nat (ones (firstn t m)))) = 1 - bsgen_bit B (rng_seq ext KSobol w 1) (zeros (firstn t l))).
    { rewrite <- Ef, <- (sob_at_first ext w B) by (try assumption; lia).
      set (s := sob_at _ _). unfold b2z. destruct (Z.leb_spec B s), (Z.gtb_spec B s); lia. }
    rewrite Eb. pose proof (bsgen_bit_bit B (rng_seq ext KSobol w 1) (zeros (firstn t l))) as Hbb.
    rewrite Z.mul_0_l. destruct Hbb as [->| ->]; reflexivity.
  - pose proof (ones_firstn_lt l t Hb Ht E) as Hlt. pose proof (ones_nonneg (firstn t l)) as Hge.
    unfold ncnt. rewrite (sob_at_first ext w B) by (try assumption; lia).
    change (1 - 1) with 0. rewrite Z.land_0_l, Z.lor_0_r, land_bit_l by (try (right; reflexivity); apply bsgen_bit_bit). lia.
Qed.

(** ** Parallel counters and scaled adders *)
Lemma parallelcnt7_sum x : length x = 7%nat -> bits x -> parallelcnt7 x = zsum x.
Proof.
  intros Hl Hb. do 7 (destruct x as [|? x]; [discriminate|]). destruct x; [|discriminate].
  do 7 (pose proof (Forall_inv Hb) as []; apply Forall_inv_tail in Hb; subst); reflexivity.
Qed.

Lemma parallelcnt15_split a b c : length a = 7%nat -> length b = 7%nat -> bits a -> bits b -> bit c ->
  parallelcnt15 (a ++ b ++ [c]) = zsum (a ++ b ++ [c]).
Proof.
  intros La Lb Ha Hb Hc. unfold parallelcnt15.
  assert (E1 : firstn 7 (a ++ b ++ [c]) = a) by (rewrite <- La, firstn_app, Nat.sub_diag, firstn_all, firstn_O, app_nil_r; reflexivity).
  assert (E2 : skipn 7 (a ++ b ++ [c]) = b ++ [c]) by (rewrite <- La, skipn_app, Nat.sub_diag, skipn_all, skipn_O; reflexivity).
  assert (E3 : firstn 7 (b ++ [c]) = b) by (rewrite <- Lb, firstn_app, Nat.sub_diag, firstn_all, firstn_O, app_nil_r; reflexivity).
  assert (E4 : bitn (a ++ b ++ [c]) 14 = c) by (unfold bitn; rewrite !app_nth2 by lia; rewrite La, Lb; reflexivity).
  rewrite E1, E2, E3, E4, (parallelcnt7_sum a La Ha), (parallelcnt7_sum b Lb Hb), !zsum_app.
  assert (Ra : 0 <= zsum a <= 7).
  { rewrite (zsum_ones a Ha). pose proof (countb_le_len (Z.eqb 1) a) as H. fold (ones a) in H. unfold zlen in H. rewrite La in H.
    pose proof (ones_nonneg a). lia. }
  assert (Rb : 0 <= zsum b <= 7).
  { rewrite (zsum_ones b Hb). pose proof (countb_le_len (Z.eqb 1) b) as H. fold (ones b) in H. unfold zlen in H. rewrite Lb in H.
    pose proof (ones_nonneg b). lia. }
  set (u := zsum a) in *. set (v := zsum b) in *. clearbody u v. clear - Ra Rb Hc.
  assert (Cu : u = 0 \/ u = 1 \/ u = 2 \/ u = 3 \/ u = 4 \/ u = 5 \/ u = 6 \/ u = 7) by lia.
  assert (Cv : v = 0 \/ v = 1 \/ v = 2 \/ v = 3 \/ v = 4 \/ v = 5 \/ v = 6 \/ v = 7) by lia.
  clear Ra Rb. repeat destruct Cu as [->|Cu]; subst; repeat destruct Cv as [->|Cv]; subst; destruct Hc as [->| ->]; reflexivity.
Qed.

Lemma parallelcnt15_sum x : length x = 15%nat -> bits x -> parallelcnt15 x = zsum x.
Proof.
  intros Hl Hb.
  assert (La : length (firstn 7 x) = 7%nat) by (rewrite firstn_length; lia).
  assert (Lr : length (skipn 7 x) = 8%nat) by (rewrite skipn_length; lia).
  rewrite <- (firstn_skipn 7 x) in Hb |- *. set (a := firstn 7 x) in *. set (r := skipn 7 x) in *.
  destruct (proj1 (BaseLemmas.bits_app _ _) Hb) as [Ha Hr]. clear Hb. clearbody a r. clear x Hl.
  assert (Lb : length (firstn 7 r) = 7%nat) by (rewrite firstn_length; lia).
  assert (Hl : length (skipn 7 r) = 1%nat) by (rewrite skipn_length; lia).
  rewrite <- (firstn_skipn 7 r) in Hr |- *. set (b := firstn 7 r) in *. set (q := skipn 7 r) in *.
  destruct (proj1 (BaseLemmas.bits_app _ _) Hr) as [Hb Hq]. clear Hr. clearbody b q. clear r Lr.
  destruct q as [|c [|? q]]; cbn [length] in Hl; try lia.
  apply parallelcnt15_split; try assumption. exact (Forall_inv Hq).
Qed.

Lemma usadd_acc_spec n a s : 0 <= a < p2 n -> 0 <= s <= p2 n ->
  usadd_acc n a s = (a + s - p2 n * b2z (a + s >=? p2 n), b2z (a + s >=? p2 n)).
Proof.
  intros Ha Hs. unfold usadd_acc. rewrite (bsel_top n s) by (rewrite p2_S; lia).
  pose proof (p2_pos n) as Hp.
  assert (E : 0 <= trunc n s < p2 n) by (apply Z.mod_pos_bound; lia).
  rewrite (trunc_id (S n)) by (rewrite p2_S; lia). rewrite bsel_top by (rewrite p2_S; lia).
  destruct (Z.geb_spec s (p2 n)) as [G|G]; cbn [b2z Z.eqb Pos.eqb].
  - assert (s = p2 n) by lia. subst s. unfold trunc at 2. rewrite Z.mod_same, Z.add_0_r, (trunc_id n) by lia.
    destruct (Z.geb_spec (a + p2 n) (p2 n)); [cbn [b2z]; f_equal; lia|lia].
  - rewrite (trunc_id n s) by lia. f_equal.
    unfold trunc, b2z. destruct (Z.geb_spec (a + s) (p2 n)).
    + symmetry. apply (Z.mod_unique _ _ 1); lia.
    + rewrite Z.mod_small by lia. lia.
Qed.

Lemma bits_sum_range x n : length x = n -> bits x -> 0 <= zsum x <= Z.of_nat n.
Proof.
  intros Hl Hb. rewrite (zsum_ones x Hb). pose proof (countb_le_len (Z.eqb 1) x) as H. fold (ones x) in H.
  unfold zlen in H. rewrite Hl in H. pose proof (ones_nonneg x). lia.
Qed.

Lemma usadd8_spec a x : 0 <= a < 8 -> length x = 8%nat -> bits x ->
  usadd8 a x = (a + zsum x - 8 * b2z (a + zsum x >=? 8), b2z (a + zsum x >=? 8)).
Proof.
  intros Ha Hl Hb. unfold usadd8.
  assert (Ex : x = firstn 7 x ++ [bitn x 7]).
  { rewrite <- (firstn_skipn 7 x) at 1. f_equal. do 8 (destruct x as [|? x]; [discriminate|]). destruct x; [reflexivity|discriminate]. }
  assert (L7 : length (firstn 7 x) = 7%nat) by (rewrite firstn_length; lia).
  assert (B7 : bits (firstn 7 x)) by (apply bits_firstn, Hb).
  assert (Es : zsum (firstn 7 x) + bitn x 7 = zsum x) by (rewrite Ex at 3; rewrite zsum_app; cbn [zsum]; lia).
  rewrite parallelcnt7_sum, Es by assumption. pose proof (bits_sum_range x 8 Hl Hb) as Hs.
  rewrite trunc_id by (change (p2 4) with 16; lia). apply (usadd_acc_spec 3); change (p2 3) with 8; lia.
Qed.

Lemma usadd16_spec a x : 0 <= a < 16 -> length x = 16%nat -> bits x ->
  usadd16 a x = (a + zsum x - 16 * b2z (a + zsum x >=? 16), b2z (a + zsum x >=? 16)).
Proof.
  intros Ha Hl Hb. unfold usadd16.
  assert (Ex : x = firstn 15 x ++ [bitn x 15]).
  { rewrite <- (firstn_skipn 15 x) at 1. f_equal. do 16 (destruct x as [|? x]; [discriminate|]). destruct x; [reflexivity|discriminate]. }
  assert (L7 : length (firstn 15 x) = 15%nat) by (rewrite firstn_length; lia).
  assert (B7 : bits (firstn 15 x)) by (apply bits_firstn, Hb).
  assert (Es : zsum (firstn 15 x) + bitn x 15 = zsum x) by (rewrite Ex at 3; rewrite zsum_app; cbn [zsum]; lia).
  rewrite parallelcnt15_sum, Es by assumption. pose proof (bits_sum_range x 16 Hl Hb) as Hs.
  rewrite trunc_id by (change (p2 5) with 32; lia). apply (usadd_acc_spec 4); change (p2 4) with 16; lia.
Qed.

(** An integer accumulator with wrap-around agrees with the rational one. *)
Definition int_acc (n : Z) (a : Z) (s : Z) : Z * Z := (a + s - n * b2z (a + s >=? n), b2z (a + s >=? n)).

Lemma add_lane_int lim n off a acc col : (off == 0)%Q -> 0 < n -> (inject_Z (2 * n - 1) <= lim)%Q -> (acc == inject_Z a)%Q ->
  0 <= a < n -> 0 <= zsum col <= n ->
  snd (add_lane lim (inject_Z n) off acc col) = snd (int_acc n a (zsum col)) /\
  (fst (add_lane lim (inject_Z n) off acc col) == inject_Z (fst (int_acc n a (zsum col))))%Q /\
  0 <= fst (int_acc n a (zsum col)) < n.
Proof.
  intros Ho Hn Hl Ea Ha Hs. unfold int_acc. cbn [fst snd].
  assert (Ep : (acc + (inject_Z (zsum col) - off) == inject_Z (a + zsum col))%Q) by (rewrite Ea, Ho, inject_Z_plus; ring).
  assert (B1 : (inject_Z (a + zsum col) <= inject_Z (2 * n - 1))%Q) by (apply inject_Z_le_iff; lia).
  assert (B0 : (inject_Z 0 <= inject_Z (a + zsum col))%Q) by (apply inject_Z_le_iff; lia).
  change (inject_Z 0) with 0%Q in B0.
  destruct (add_lane_free lim (inject_Z n) off acc col (inject_Z_pos n Hn)) as [F1 F2]; [rewrite Ep; lra|rewrite Ep; lra|].
  set (o := snd (add_lane lim (inject_Z n) off acc col)) in *.
  assert (Eo : o = b2z (a + zsum col >=? n)).
  { destruct F2 as [[E F]|[E F]]; rewrite E, Ep in *.
    - rewrite <- Zle_Qle in F. destruct (Z.geb_spec (a + zsum col) n); [reflexivity|lia].
    - rewrite <- Zlt_Qlt in F. destruct (Z.geb_spec (a + zsum col) n); [lia|reflexivity]. }
  split; [exact Eo|]. rewrite F1, Ep, Eo. split.
  - rewrite <- inject_Z_mult. unfold Qminus. rewrite <- inject_Z_opp, <- inject_Z_plus. apply inject_Z_eq. ring.
  - unfold b2z. destruct (Z.geb_spec (a + zsum col) n); lia.
Qed.

Lemma int_acc_run lim n off cols : (off == 0)%Q -> 0 < n -> (inject_Z (2 * n - 1) <= lim)%Q ->
  Forall (fun col => 0 <= zsum col <= n) cols -> forall a acc, (acc == inject_Z a)%Q -> 0 <= a < n ->
  outs (add_lane lim (inject_Z n) off) acc cols = outs (int_acc n) a (map zsum cols).
Proof.
  intros Ho Hn Hl. induction cols as [|col cols IH]; intros HF a acc Ea Ha; [reflexivity|].
  destruct (add_lane_int lim n off a acc col Ho Hn Hl Ea Ha (Forall_inv HF)) as (H1 & H2 & H3).
  cbn [map]. rewrite !outs_cons, H1. f_equal. apply IH; [exact (Forall_inv_tail HF)|exact H2|exact H3].
Qed.

Definition scaled_cfg (depth : Z) : fsuadd_cfg :=
  {| fa_mode := Unipolar; fa_scale := None; fa_depth := depth; fa_entry := None |}.

Lemma fsuadd_int depth n cols : (0 < n)%nat -> (inject_Z (2 * Z.of_nat n - 1) <= qpow2 (depth - 2))%Q ->
  Forall (fun col => length col = n /\ bits col) cols ->
  outs (fsuadd_step (scaled_cfg depth)) (fsuadd_init (scaled_cfg depth)) cols = outs (int_acc (Z.of_nat n)) 0 (map zsum cols).
Proof.
  intros Hn Hd HF. destruct cols as [|col cols]; [reflexivity|].
  destruct (fsuadd_step_run (scaled_cfg depth) col cols) as [-> _].
  unfold resolved_entry, resolved_scale, mode_offset, scaled_cfg. cbn [fa_mode fa_scale fa_depth fa_entry].
  assert (zlen col = Z.of_nat n) as -> by (unfold zlen; destruct (Forall_inv HF) as [-> _]; reflexivity).
  apply int_acc_run; [reflexivity|lia|exact Hd| |reflexivity|lia].
  eapply Forall_impl; [|exact HF]. intros c [Hl Hb]. apply bits_sum_range; assumption.
Qed.

Lemma usadd_outs (f : Z -> list Z -> Z * Z) n cols : (0 < n)%nat ->
  (forall a x, 0 <= a < Z.of_nat n -> length x = n -> bits x -> f a x = int_acc (Z.of_nat n) a (zsum x)) ->
  Forall (fun col => length col = n /\ bits col) cols -> forall a, 0 <= a < Z.of_nat n ->
  outs f a cols = outs (int_acc (Z.of_nat n)) a (map zsum cols).
Proof.
  intros Hn H. induction cols as [|col cols IH]; intros HF a Ha; [reflexivity|].
  destruct (Forall_inv HF) as [Hl Hb]. cbn [map]. rewrite !outs_cons, H by assumption. f_equal.
  apply IH; [exact (Forall_inv_tail HF)|]. unfold int_acc. cbn [fst].
  pose proof (bits_sum_range col n Hl Hb). unfold b2z. destruct (Z.geb_spec (a + zsum col) (Z.of_nat n)); lia.
Qed.

Lemma depth6 depth n : 6 <= depth -> n <= 8 -> (inject_Z (2 * n - 1) <= qpow2 (depth - 2))%Q.
Proof.
  intros Hd Hn. rewrite qpow2_p2 by lia. apply inject_Z_le_iff.
  assert (2 ^ 4 <= 2 ^ (depth - 2)) by (apply Z.pow_le_mono_r; lia). change (2 ^ 4) with 16 in H. lia.
Qed.
Lemma depth7 depth n : 7 <= depth -> n <= 16 -> (inject_Z (2 * n - 1) <= qpow2 (depth - 2))%Q.
Proof.
  intros Hd Hn. rewrite qpow2_p2 by lia. apply inject_Z_le_iff.
  assert (2 ^ 5 <= 2 ^ (depth - 2)) by (apply Z.pow_le_mono_r; lia). change (2 ^ 5) with 32 in H. lia.
Qed.

Lemma usadd8_equiv depth cols : 6 <= depth -> Forall (fun col => length col = 8%nat /\ bits col) cols ->
  outs usadd8 usadd_init cols = outs (fsuadd_step (scaled_cfg depth)) (fsuadd_init (scaled_cfg depth)) cols.
Proof.
  intros Hd HF. rewrite (fsuadd_int depth 8) by (try exact HF; try lia; apply depth6; lia).
  apply (usadd_outs usadd8 8); [lia| |exact HF|unfold usadd_init; lia]. intros a x Ha Hl Hb. apply usadd8_spec; assumption.
Qed.
Lemma usadd16_equiv depth cols : 7 <= depth -> Forall (fun col => length col = 16%nat /\ bits col) cols ->
  outs usadd16 usadd_init cols = outs (fsuadd_step (scaled_cfg depth)) (fsuadd_init (scaled_cfg depth)) cols.
Proof.
  intros Hd HF. rewrite (fsuadd_int depth 16) by (try exact HF; try lia; apply depth7; lia).
  apply (usadd_outs usadd16 16); [lia| |exact HF|unfold usadd_init; lia]. intros a x Ha Hl Hb. apply usadd16_spec; assumption.
Qed.

(** ** The multiply-accumulate unit *)
Fixpoint umac_cols (w : nat) (muls : list (Z * (Z * Z))) (h : list (list Z * list Z)) : list (list Z) :=
  match h with
  | [] => []
  | x :: r => let rs := map2 (fun m ab => umul_uni w m (fst ab, snd ab, 0)) muls (combine (fst x) (snd x)) in
              map snd rs :: umac_cols w (map fst rs) r
  end.

Lemma umac_step w muls acc x :
  let rs := map2 (fun m ab => umul_uni w m (fst ab, snd ab, 0)) muls (combine (fst x) (snd x)) in
  umac_uni w (muls, acc) (fst x, snd x, 0) = ((map fst rs, fst (usadd16 acc (map snd rs))), snd (usadd16 acc (map snd rs))).
Proof.
  unfold umac_uni. cbv beta zeta. generalize (map2 (fun m ab => umul_uni w m (fst ab, snd ab, 0)) muls (combine (fst x) (snd x))).
  intros rs. destruct (usadd16 acc (map snd rs)) as [a o]. reflexivity.
Qed.

Lemma umac_outs w h : forall muls acc,
  outs (umac_uni w) (muls, acc) (map (fun x => (fst x, snd x, 0)) h) = outs usadd16 acc (umac_cols w muls h).
Proof.
  induction h as [|x h IH]; intros muls acc; [reflexivity|].
  change (map (fun x => (fst x, snd x, 0)) (x :: h)) with ((fst x, snd x, 0) :: map (fun x => (fst x, snd x, 0)) h).
  pose proof (umac_step w muls acc x) as E. cbv zeta in E.
  change (umac_cols w muls (x :: h)) with
    (map snd (map2 (fun m ab => umul_uni w m (fst ab, snd ab, 0)) muls (combine (fst x) (snd x))) ::
     umac_cols w (map fst (map2 (fun m ab => umul_uni w m (fst ab, snd ab, 0)) muls (combine (fst x) (snd x)))) h).
  set (rs := map2 _ _ _) in *. clearbody rs.
  rewrite outs_cons, E. rewrite (outs_cons usadd16).
  generalize (usadd16 acc (map snd rs)). intros p. cbn [fst snd]. rewrite IH. reflexivity.
Qed.

Definition row_ok (n : nat) (x : list Z * list Z) : Prop := length (fst x) = n /\ length (snd x) = n.

Lemma umac_cols_spec w n h : Forall (row_ok n) h -> forall muls, length muls = n ->
  length (umac_cols w muls h) = length h /\
  Forall (fun col => length col = n) (umac_cols w muls h) /\
  forall i t d, (i < n)%nat -> (t < length h)%nat ->
    nth i (nth t (umac_cols w muls h) []) 0 =
    nth t (outs (umul_uni w) (nth i muls d) (map (fun x => (nth i (fst x) 0, nth i (snd x) 0, 0)) h)) 0.
Proof.
  induction h as [|x h IH]; intros HF muls Hm; [repeat split; [constructor|]; cbn [length]; lia|].
  destruct (Forall_inv HF) as [Hx1 Hx2]. cbn [umac_cols].
  set (g := fun (m : Z * (Z * Z)) (ab : Z * Z) => umul_uni w m (fst ab, snd ab, 0)).
  set (rs := map2 g muls (combine (fst x) (snd x))).
  assert (Lc : length (combine (fst x) (snd x)) = n) by (rewrite combine_length; lia).
  assert (Lr : length rs = n) by (unfold rs; rewrite map2_length; lia).
  destruct (IH (Forall_inv_tail HF) (map fst rs)) as (H1 & H2 & H3); [rewrite map_length; exact Lr|].
  split; [cbn [length]; rewrite H1; reflexivity|].
  split; [constructor; [rewrite map_length; exact Lr|exact H2]|].
  intros i t d Hi Ht. cbn [map]. rewrite outs_cons.
  assert (Er : nth i rs (d, 0) = umul_uni w (nth i muls d) (nth i (fst x) 0, nth i (snd x) 0, 0)).
  { unfold rs. rewrite (map2_nth' g muls _ i d (0, 0)) by lia. unfold g.
    rewrite combine_nth by lia. reflexivity. }
  destruct t as [|t]; cbn [nth].
  - rewrite <- Er. apply (map_nth snd rs (d, 0) i).
  - cbn [length] in Ht. rewrite <- Er. rewrite (H3 i t d Hi ltac:(lia)). f_equal. f_equal.
    apply (map_nth fst rs (d, 0) i).
Qed.

Lemma lane_map_fst (h : list (list Z * list Z)) i : lane (map (fun x => [fst x]) h) 0 i = map (fun x => nth i (fst x) 0) h.
Proof. unfold lane. rewrite map_map. reflexivity. Qed.

Lemma umac_uni_equiv ext w depth Bs h c : (1 <= w <= 30)%nat -> torch_dim1 ext -> 7 <= depth ->
  length Bs = 16%nat ->
  c = {| pc_mode := Unipolar; pc_wtc := false; pc_rng := rng_seq ext KSobol w 1; pc_in := 16; pc_out := 1;
         pc_weight := [Bs]; pc_bias := None |} ->
  Forall (fun x => length (fst x) = 16%nat /\ bits (fst x) /\ length (snd x) = 16%nat) h ->
  (forall i, (i < 16)%nat -> ones (map (fun x => nth i (fst x) 0) h) <= p2 w) ->
  exists os, outputs (run_r (flin_step c (flin_acc_cfg c None depth)) (flin_init c) (no_args (map (fun x => [fst x]) h))) = Some os /\
  outs (umac_uni w) (map (fun B => (B, sobol_rtl_init)) Bs, usadd_init) (map (fun x => (fst x, snd x, 0)) h) = lane os 0 0.
Proof.
  intros Hw He Hd HB Ec HF Ho. set (a := flin_acc_cfg c None depth). set (hh := map (fun x => [fst x]) h).
  assert (Hin : pc_in c = 16%nat) by (subst c; reflexivity). assert (Hout : pc_out c = 1%nat) by (subst c; reflexivity).
  assert (Hs : pc_shape c).
  { subst c. split; [reflexivity|]. split; [|exact Logic.I]. constructor; [exact HB|constructor]. }
  assert (Hh : Forall (batch_ok 1 (pc_in c)) hh).
  { unfold hh. rewrite Forall_map. rewrite Hin. eapply Forall_impl; [|exact HF]. intros x (Hx1 & Hx2 & _).
    split; [reflexivity|]. constructor; [split; assumption|constructor]. }
  destruct (flin_run c a 1 (no_args hh) Hs (le_n 1)) as (pc & _ & E); [rewrite fl_inputs_no_args; exact Hh|].
  rewrite E. clear E. eexists. split; [reflexivity|].
  assert (Lh : length (no_args hh) = length h) by (unfold no_args, hh; rewrite !map_length; reflexivity). rewrite Lh.
  assert (Lhh : length hh = length h) by (unfold hh; apply map_length).
  unfold lane. rewrite map_tab.
  transitivity (outs (fsuadd_call a) (fsuadd_init a) (fl_calls c (no_args hh) 0 0)).
  2:{ rewrite <- (outs_tab_nth (fsuadd_call a) (fsuadd_init a) (fl_calls c (no_args hh) 0 0) (length h) 0).
      2:{ unfold fl_calls. rewrite tab_length. exact Lh. }
      apply tab_ext. intros t Ht. symmetry. rewrite Hout. apply (tab2_entry 1 1); lia. }
  rewrite flin_lane_cols. unfold outs at 2. rewrite <- fsuadd_step_call.
  set (cols := tab (length hh) (fun t => [pc_out_at c hh t 0 0])).
  fold (outs (fsuadd_step a) (fsuadd_init a) cols).
  assert (He16 : flin_entry c = 16) by (subst c; reflexivity).
  assert (Ea : outs (fsuadd_step a) (fsuadd_init a) cols = outs (int_acc 16) 0 (map zsum cols)).
  { assert (Hcols : Forall (fun col => 0 <= zsum col <= 16) cols).
    { apply Forall_forall. intros col Hc. unfold cols, tab in Hc. apply in_map_iff in Hc. destruct Hc as (t & <- & Ht). apply in_seq in Ht.
      cbn [zsum]. rewrite Z.add_0_r, <- He16. apply (pc_out_range c 1); [exact Hh|lia|lia]. }
    destruct cols as [|col cols']; [reflexivity|].
    destruct (fsuadd_step_run a col cols') as [-> _].
    unfold a, flin_acc_cfg, resolved_entry, resolved_scale. cbn [fa_mode fa_scale fa_depth fa_entry]. rewrite He16.
    apply int_acc_run; [|lia|apply depth7; lia|exact Hcols|reflexivity|lia].
    subst c. reflexivity. }
  rewrite Ea. clear Ea.
  rewrite umac_outs.
  assert (Hrow : Forall (row_ok 16) h) by (eapply Forall_impl; [|exact HF]; intros x (H1 & _ & H2); split; assumption).
  destruct (umac_cols_spec w 16 h Hrow (map (fun B => (B, sobol_rtl_init)) Bs)) as (C1 & C2 & C3); [rewrite map_length; exact HB|].
  set (uc := umac_cols w _ h) in *.
  assert (Lane : forall i t, (i < 16)%nat -> (t < length h)%nat -> nth i (nth t uc []) 0 =
    nth t (outs (fsumul_static_step Unipolar (nth i Bs 0) (rng_seq ext KSobol w 1)) fsumul_static_init (lane hh 0 i)) 0).
  { intros i t Hi Ht. rewrite (C3 i t (0, sobol_rtl_init) Hi Ht).
    rewrite (map_nth (fun B => (B, sobol_rtl_init)) Bs 0 i).
    pose proof (umul_uni_equiv ext w (nth i Bs 0) (map (fun x => (nth i (fst x) 0, nth i (snd x) 0)) h) Hw He) as U.
    rewrite !map_map in U. cbn [fst snd] in U.
    unfold hh. rewrite lane_map_fst. rewrite U; [reflexivity| |apply Ho, Hi].
    unfold bits. rewrite Forall_map. eapply Forall_impl; [|exact HF]. intros x (H1 & H2 & _).
    apply (Forall_nth_lt bit _ i 0 H2). lia. }
  rewrite (usadd_outs usadd16 16).
  - f_equal. apply (list_eq_nth _ _ 0).
    + rewrite !map_length. unfold cols. rewrite tab_length, Lhh. exact C1.
    + intros t Ht. rewrite map_length, C1 in Ht. change 0 with (zsum []) at 1 2. rewrite !map_nth.
      unfold cols. rewrite (tab_nth _ _ t []) by lia. cbn [zsum]. rewrite Z.add_0_r.
      unfold pc_out_at, pc_bbit. rewrite Hin. subst c. cbn [pc_bias]. rewrite Z.add_0_r.
      assert (Lt : length (nth t uc []) = 16%nat) by (apply (Forall_nth_lt _ uc t [] C2); lia).
      rewrite (tab_of (nth t uc []) 0), Lt. f_equal. apply tab_ext. intros i Hi.
      rewrite Lane by lia. rewrite (pc_prod_rate _ 1); try reflexivity; try assumption; try lia.
      unfold rng_ok. cbn [pc_rng]. rewrite torch_seq_length by lia. pose proof (Nat.pow_nonzero 2 w ltac:(lia)). lia.
  - lia.
  - intros x y Hx Hl Hb. apply usadd16_spec; assumption.
  - apply Forall_forall. intros col Hc. split; [rewrite Forall_forall in C2; apply C2, Hc|].
    apply (In_nth _ _ []) in Hc. destruct Hc as (t & Ht & <-). rewrite C1 in Ht.
    apply Forall_forall. intros z Hz. apply (In_nth _ _ 0) in Hz. destruct Hz as (i & Hi & <-).
    assert (Lt : length (nth t uc []) = 16%nat) by (apply (Forall_nth_lt _ uc t [] C2); lia). rewrite Lt in Hi.
    rewrite Lane by lia.
    assert (HL : bits (lane hh 0 i)) by (apply (lane_bits 1 16); [rewrite <- Hin; exact Hh|lia|exact Hi]).
    destruct (mul_static_uni (nth i Bs 0) (rng_seq ext KSobol w 1) (lane hh 0 i)) as (_ & Hm & _); [|exact HL|].
    + rewrite torch_seq_length by lia. pose proof (Nat.pow_nonzero 2 w ltac:(lia)). lia.
    + apply (Forall_nth_lt bit _ t 0 Hm). unfold mul_out. rewrite outs_length, lane_length. lia.
  - unfold usadd_init. lia.
Qed.

(** ** Loading the buffered operand *)
Lemma umul_uni_load ext w B x0 xs : (1 <= w <= 30)%nat -> torch_dim1 ext -> bits (x0 :: map fst xs) ->
  ones (x0 :: map fst xs) <= p2 w ->
  outs (umul_uni w) umul_uni_init ((x0, B, 1) :: map (fun p => (fst p, snd p, 0)) xs) =
  0 :: tl (outs (fsumul_static_step Unipolar B (rng_seq ext KSobol w 1)) fsumul_static_init (x0 :: map fst xs)).
Proof.
  intros Hw He Hb Ho.
  pose proof (umul_uni_equiv ext w B ((x0, 0) :: xs) Hw He Hb Ho) as E. cbn [map fst snd] in E. rewrite <- E. clear E.
  rewrite !outs_cons. cbn [tl].
  assert (E1 : umul_uni w umul_uni_init (x0, B, 1) = ((B, fst (sobol_rtl w sobol_rtl_init x0)), 0)).
  { unfold umul_uni, umul_uni_init. destruct (sobol_rtl w sobol_rtl_init x0) as [r s] eqn:Er.
    assert (s = 0) as -> by (apply (f_equal snd) in Er; symmetry; exact Er). 
    cbn [fst]. destruct (Forall_inv Hb) as [->| ->]; reflexivity. }
  assert (E2 : fst (umul_uni w (B, sobol_rtl_init) (x0, 0, 0)) = (B, fst (sobol_rtl w sobol_rtl_init x0))).
  { unfold umul_uni. destruct (sobol_rtl w sobol_rtl_init x0) as [r s]. reflexivity. }
  rewrite E1, E2. reflexivity.
Qed.

Lemma umul_bi_load ext w B x0 xs : (1 <= w <= 30)%nat -> torch_dim1 ext -> bits (x0 :: map fst xs) ->
  ones (x0 :: map fst xs) <= p2 w -> zeros (x0 :: map fst xs) <= p2 w ->
  outs (umul_bi w) umul_bi_init ((x0, B, 1) :: map (fun p => (fst p, snd p, 0)) xs) =
  (1 - x0) :: tl (outs (fsumul_static_step Bipolar B (rng_seq ext KSobol w 1)) fsumul_static_init (x0 :: map fst xs)).
Proof.
  intros Hw He Hb Ho Hz.
  pose proof (umul_bi_equiv ext w B ((x0, 0) :: xs) Hw He Hb Ho Hz) as E. cbn [map fst snd] in E. rewrite <- E. clear E.
  rewrite !outs_cons. cbn [tl].
  assert (E1 : umul_bi w umul_bi_init (x0, B, 1) = ((B, (fst (sobol_rtl w sobol_rtl_init x0), fst (sobol_rtl w sobol_rtl_init (1 - x0)))), 1 - x0)).
  { unfold umul_bi, umul_bi_init, bnot.
    destruct (sobol_rtl w sobol_rtl_init x0) as [r s] eqn:Er. destruct (sobol_rtl w sobol_rtl_init (1 - x0)) as [r' s'] eqn:Er'.
    assert (s = 0) as -> by (apply (f_equal snd) in Er; symmetry; exact Er).
    assert (s' = 0) as -> by (apply (f_equal snd) in Er'; symmetry; exact Er').
    cbn [fst]. destruct (Forall_inv Hb) as [->| ->]; reflexivity. }
  assert (E2 : fst (umul_bi w (B, (sobol_rtl_init, sobol_rtl_init)) (x0, 0, 0)) =
    (B, (fst (sobol_rtl w sobol_rtl_init x0), fst (sobol_rtl w sobol_rtl_init (1 - x0))))).
  { unfold umul_bi, bnot. destruct (sobol_rtl w sobol_rtl_init x0) as [r s]. destruct (sobol_rtl w sobol_rtl_init (1 - x0)) as [r' s']. reflexivity. }
  rewrite E1, E2. reflexivity.
Qed.

Lemma umac_uni_load w Bs : length Bs = 16%nat ->
  umac_uni w umac_uni_init (repeat 0 16, Bs, 1) = ((map (fun B => (B, sobol_rtl_init)) Bs, usadd_init), 0).
Proof.
  intros Hl. do 16 (destruct Bs as [|? Bs]; [discriminate|]). destruct Bs; [|discriminate].
  assert (E : forall b, umul_uni w umul_uni_init (0, b, 1) = ((b, sobol_rtl_init), 0)).
  { intros b. unfold umul_uni, umul_uni_init, sobol_rtl, sobol_rtl_init. cbn [Z.eqb Z.add]. unfold trunc. rewrite Z.mod_0_l; [reflexivity|].
    pose proof (p2_pos w). lia. }
  unfold umac_uni, umac_uni_init. cbn [repeat combine map2 fst snd]. rewrite !E. reflexivity.
Qed.

Lemma nth_skipn' {A} (d : A) : forall l n i, nth i (skipn n l) d = nth (n + i) l d.
Proof. induction l as [|x l IH]; intros [|n] i; cbn [skipn Nat.add nth]; [reflexivity| |reflexivity|apply IH]. destruct i; reflexivity. Qed.
Lemma firstn_repeat' {A} (x : A) : forall k n, (k <= n)%nat -> firstn k (repeat x n) = repeat x k.
Proof. induction k as [|k IH]; intros [|n] H; [reflexivity|reflexivity|lia|]. cbn [repeat firstn]. rewrite IH by lia. reflexivity. Qed.

(** The generator enabled on every clock: each period of 2^w clocks lists every value once. *)
Lemma sobol_rtl_period w p : (1 <= w)%nat ->
  Permutation (skipn (p * 2 ^ w) (outs (sobol_rtl w) sobol_rtl_init (repeat 1 (p * 2 ^ w + 2 ^ w)))) (zrange (2 ^ w)).
Proof.
  intros Hw. etransitivity; [|apply (sob_at_period w p Hw)].
  assert (E : skipn (p * 2 ^ w) (outs (sobol_rtl w) sobol_rtl_init (repeat 1 (p * 2 ^ w + 2 ^ w))) =
    map (fun i => sob_at w (p * 2 ^ w + i)) (seq 0 (2 ^ w))); [|rewrite E; apply Permutation_refl].
  set (n := (2 ^ w)%nat). set (m := (p * n)%nat). set (o := outs _ _ _).
  assert (Lo : length o = (m + n)%nat) by (unfold o; rewrite outs_length, repeat_length; reflexivity).
  apply (nth_ext _ _ 0 0).
  - rewrite skipn_length, map_length, seq_length, Lo. lia.
  - intros i Hi. rewrite skipn_length, Lo in Hi. 
    rewrite nth_skipn'. rewrite (nth_indep (map _ _) 0 (sob_at w (m + 0))) by (rewrite map_length, seq_length; lia).
    rewrite (map_nth (fun i => sob_at w (m + i))), seq_nth by lia. cbn [Nat.add].
    unfold o. rewrite sobol_rtl_nth; [|exact Hw| |rewrite repeat_length; lia].
    + f_equal. unfold ncnt. rewrite firstn_repeat' by lia.
      assert (Er : forall k, ones (repeat 1 k) = Z.of_nat k).
      { induction k as [|k IHk]; [reflexivity|]. cbn [repeat]. rewrite ones_cons, IHk. cbn [Z.eqb Pos.eqb]. lia. }
      rewrite Er. lia.
    + apply Forall_forall. intros x Hx. apply repeat_spec in Hx. right. exact Hx.
Qed.
