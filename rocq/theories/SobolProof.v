(** The Sobol sequence is a digital sequence: permutation property and discrepancy. *)
From Coq Require Import NArith Nnat.
Require Import Verif.BaseLemmas Verif.GenModel.
Open Scope Z_scope.

(** ** Least significant zero *)
Lemma lsz_pos_spec p : Zpos p mod p2 (S (lsz_pos p)) = p2 (lsz_pos p) - 1.
Proof.
  induction p as [p IH|p IH|]; cbn [lsz_pos].
  - rewrite !p2_S in *. pose proof (p2_pos (lsz_pos p)) as Hp.
    rewrite Pos2Z.inj_xI.
    symmetry. apply Z.mod_unique with (q := Zpos p / (2 * p2 (lsz_pos p))).
    + left. lia.
    + pose proof (Z.div_mod (Zpos p) (2 * p2 (lsz_pos p))). lia.
  - change (p2 1) with 2. change (p2 0 - 1) with 0.
    rewrite Pos2Z.inj_xO, Z.mul_comm. apply Z_mod_mult.
  - reflexivity.
Qed.

Lemma lsz_spec n : Z.of_N n mod p2 (S (lsz n)) = p2 (lsz n) - 1.
Proof.
  destruct n as [|p]; [reflexivity|]. apply lsz_pos_spec.
Qed.

Lemma lsz_unique x j j' :
  x mod p2 (S j) = p2 j - 1 -> x mod p2 (S j') = p2 j' - 1 -> j = j'.
Proof.
  assert (G : forall j j', (j < j')%nat -> x mod p2 (S j) = p2 j - 1 -> x mod p2 (S j') = p2 j' - 1 -> False).
  { clear j j'. intros j j' Hlt H1 H2.
    replace j' with (S j + (j' - S j))%nat in H2 by lia.
    set (d := (j' - S j)%nat) in *. clearbody d.
    replace (S (S j + d)) with (S j + S d)%nat in H2 by lia.
    rewrite !p2_add in H2.
    pose proof (p2_pos j) as Pj. pose proof (p2_pos d) as Pd. pose proof (p2_S j) as E.
    assert (H3 : x mod p2 (S j) = (p2 (S j) * p2 d - 1) mod p2 (S j)).
    { rewrite <- H2. rewrite Z.rem_mul_r by (try rewrite p2_S; pose proof (p2_pos (S d)); lia).
      rewrite Z.mul_comm, Z_mod_plus_full, Zmod_mod. reflexivity. }
    assert (H4 : (p2 (S j) * p2 d - 1) mod p2 (S j) = p2 (S j) - 1).
    { symmetry. apply Z.mod_unique with (q := p2 d - 1); [left; lia|]. nia. }
    lia. }
  intros H1 H2. destruct (Nat.lt_trichotomy j j') as [L|[E|L]]; [|exact E|]; exfalso; eauto.
Qed.

Lemma lsz_lt k i : Z.of_N i < p2 k - 1 -> (lsz i < k)%nat.
Proof.
  intros H. destruct (Nat.lt_ge_cases (lsz i) k) as [L|G]; [exact L|exfalso].
  pose proof (lsz_spec i) as E. pose proof (p2_le k (lsz i) G) as HP.
  pose proof (Z.mod_le (Z.of_N i) (p2 (S (lsz i))) ltac:(lia) (p2_pos _)). lia.
Qed.

Lemma lsz_block k a i :
  Z.of_N i < p2 k - 1 -> lsz (a * 2 ^ N.of_nat k + i)%N = lsz i.
Proof.
  intros H. pose proof (lsz_lt k i H) as L.
  apply (lsz_unique (Z.of_N (a * 2 ^ N.of_nat k + i))); [apply lsz_spec|].
  rewrite <- (lsz_spec i).
  replace (Z.of_N (a * 2 ^ N.of_nat k + i)) with (Z.of_N i + Z.of_N a * p2 k).
  2:{ unfold p2. rewrite N2Z.inj_add, N2Z.inj_mul, N2Z.inj_pow, nat_N_Z. change (Z.of_N 2) with 2. lia. }
  replace k with ((k - S (lsz i)) + S (lsz i))%nat at 1 by lia.
  rewrite p2_add, Z.mul_assoc, Z_mod_plus_full. reflexivity.
Qed.

Lemma lsz_all_ones k : lsz (2 ^ N.of_nat k - 1)%N = k.
Proof.
  apply (lsz_unique (Z.of_N (2 ^ N.of_nat k - 1))); [apply lsz_spec|].
  rewrite N2Z.inj_sub, N2Z.inj_pow, nat_N_Z.
  2:{ pose proof (N.pow_nonzero 2 (N.of_nat k)). lia. }
  change (2 ^ Z.of_nat k) with (p2 k). apply Z.mod_small. rewrite p2_S. pose proof (p2_pos k). lia.
Qed.

(** ** Points by index *)
Fixpoint sob (V : nat -> Z) (n : nat) : Z :=
  match n with
  | O => 0
  | S m => Z.lxor (sob V m) (V (lsz (N.of_nat m)))
  end.

Lemma sobol_from_map V n i : sobol_from V (sob V i) (N.of_nat i) n = map (sob V) (seq i n).
Proof.
  revert i; induction n as [|n IH]; intros i; [reflexivity|].
  cbn [sobol_from seq map]. f_equal.
  rewrite <- Nat2N.inj_succ. change (Z.lxor (sob V i) (V (lsz (N.of_nat i)))) with (sob V (S i)).
  apply IH.
Qed.

Lemma sobol_points_map V n : sobol_points V n = map (sob V) (seq 0 n).
Proof. apply (sobol_from_map V n 0). Qed.

Lemma pow2_nat_N k : N.of_nat (2 ^ k) = (2 ^ N.of_nat k)%N.
Proof. rewrite Nat2N.inj_pow. reflexivity. Qed.

Lemma sob_block V k a i : (i < 2 ^ k)%nat -> sob V (a * 2 ^ k + i) = Z.lxor (sob V (a * 2 ^ k)) (sob V i).
Proof.
  induction i as [|i IH]; intros H.
  - rewrite Nat.add_0_r. cbn [sob]. rewrite Z.lxor_0_r. reflexivity.
  - rewrite Nat.add_succ_r. cbn [sob]. rewrite IH by lia.
    rewrite Z.lxor_assoc. do 3 f_equal.
    rewrite Nat2N.inj_add, Nat2N.inj_mul, pow2_nat_N. apply lsz_block.
    rewrite nat_N_Z, <- p2_nat. lia.
Qed.

Section Dir.
  Variable M : nat.
  Variable V : nat -> Z.
  Hypothesis HV : dirvec_ok M V.

  Lemma dir_nonneg j : (j < M)%nat -> 0 <= V j.
  Proof. intros H. destruct (HV j H) as (m & -> & _ & Hm). pose proof (p2_pos (M - 1 - j)). nia. Qed.

  Lemma dir_high j b : (j < M)%nat -> Z.of_nat M <= b -> Z.testbit (V j) b = false.
  Proof.
    intros H Hb. pose proof (dir_nonneg j H) as Hn.
    apply Z.bits_above_log2; [exact Hn|].
    destruct (Z.eq_dec (V j) 0) as [->|Hne]; [cbn; lia|].
    apply Z.log2_lt_pow2; [lia|].
    destruct (HV j H) as (m & -> & _ & Hm).
    apply Z.lt_le_trans with (p2 (S j) * p2 (M - 1 - j)).
    - pose proof (p2_pos (M - 1 - j)). nia.
    - rewrite <- p2_add. unfold p2. apply Z.pow_le_mono_r; lia.
  Qed.

  Lemma dir_lead j : (j < M)%nat -> Z.testbit (V j) (Z.of_nat (M - 1 - j)) = true.
  Proof.
    intros H. destruct (HV j H) as (m & -> & Ho & _).
    unfold p2. rewrite Z.mul_pow2_bits by lia. rewrite Z.sub_diag, Z.bit0_odd. exact Ho.
  Qed.

  Lemma dir_low j b : (j < M)%nat -> 0 <= b < Z.of_nat (M - 1 - j) -> Z.testbit (V j) b = false.
  Proof.
    intros H Hb. destruct (HV j H) as (m & -> & _ & _).
    unfold p2. rewrite Z.mul_pow2_bits by lia. apply Z.testbit_neg_r. lia.
  Qed.

  (** Points of index below 2^k only use the k most significant bits. *)
  Lemma sob_low k i b : (k <= M)%nat -> (i < 2 ^ k)%nat -> 0 <= b < Z.of_nat (M - k) ->
    Z.testbit (sob V i) b = false.
  Proof.
    intros Hk. induction i as [|i IH]; intros Hi Hb; cbn [sob]; [apply Z.bits_0|].
    rewrite Z.lxor_spec, IH by lia.
    assert (L : (lsz (N.of_nat i) < k)%nat).
    { apply lsz_lt. rewrite nat_N_Z, <- p2_nat. lia. }
    rewrite dir_low by lia. reflexivity.
  Qed.

  Lemma sob_high i b : (i < 2 ^ M)%nat -> Z.of_nat M <= b -> Z.testbit (sob V i) b = false.
  Proof.
    induction i as [|i IH]; intros Hi Hb; cbn [sob]; [apply Z.bits_0|].
    rewrite Z.lxor_spec, IH by lia.
    assert (L : (lsz (N.of_nat i) < M)%nat).
    { apply lsz_lt. rewrite nat_N_Z, <- p2_nat. lia. }
    rewrite dir_high by lia. reflexivity.
  Qed.

  Lemma sob_nonneg i : (i < 2 ^ M)%nat -> 0 <= sob V i.
  Proof.
    induction i as [|i IH]; intros Hi; cbn [sob]; [lia|].
    apply Z.lxor_nonneg. split; intros _.
    - apply dir_nonneg. apply lsz_lt. rewrite nat_N_Z, <- p2_nat. lia.
    - apply IH. lia.
  Qed.

  Lemma bits_lt x k : 0 <= x -> (forall b, Z.of_nat k <= b -> Z.testbit x b = false) -> x < p2 k.
  Proof.
    intros Hx Hb. destruct (Z.eq_dec x 0) as [->|Hn]; [apply p2_pos|].
    unfold p2. apply Z.log2_lt_pow2; [lia|].
    destruct (Z.lt_ge_cases (Z.log2 x) (Z.of_nat k)) as [L|G]; [exact L|exfalso].
    specialize (Hb _ G). rewrite Z.bit_log2 in Hb by lia. discriminate.
  Qed.

  Lemma sob_lt i : (i < 2 ^ M)%nat -> sob V i < p2 M.
  Proof. intros Hi. apply bits_lt; [apply sob_nonneg, Hi|]. intros b Hb. apply sob_high; assumption. Qed.

  Lemma sob_pow_bit k : (k < M)%nat -> Z.testbit (sob V (2 ^ k)) (Z.of_nat (M - 1 - k)) = true.
  Proof.
    intros Hk. destruct (2 ^ k)%nat as [|n] eqn:E; [pose proof (Nat.pow_nonzero 2 k); lia|].
    cbn [sob]. rewrite Z.lxor_spec, (sob_low k) by lia.
    replace (N.of_nat n) with (2 ^ N.of_nat k - 1)%N.
    2:{ rewrite <- pow2_nat_N, E. lia. }
    rewrite lsz_all_ones, dir_lead by exact Hk. reflexivity.
  Qed.

  Lemma sob_inj k : (k <= M)%nat -> forall i j, (i < 2 ^ k)%nat -> (j < 2 ^ k)%nat -> sob V i = sob V j -> i = j.
  Proof.
    induction k as [|k IH]; intros Hk i j Hi Hj E.
    - cbn in Hi, Hj. lia.
    - cbn [Nat.pow] in Hi, Hj. set (P := (2 ^ k)%nat) in *.
      assert (HP : (0 < P)%nat) by (unfold P; pose proof (Nat.pow_nonzero 2 k); lia).
      assert (Hbit : forall x, (x < 2 * P)%nat ->
                Z.testbit (sob V x) (Z.of_nat (M - 1 - k)) = if (x <? P)%nat then false else true).
      { intros x Hx. destruct (Nat.ltb_spec x P).
        - apply (sob_low k); [lia|exact H|lia].
        - replace x with (1 * P + (x - P))%nat by lia. unfold P at 1.
          rewrite sob_block by (fold P; lia).
          rewrite Z.lxor_spec, (sob_low k (x - P)) by (fold P; lia).
          rewrite Nat.mul_1_l. rewrite sob_pow_bit by lia. reflexivity. }
      assert (Hb : (i <? P)%nat = (j <? P)%nat).
      { pose proof (Hbit i Hi) as B1. pose proof (Hbit j Hj) as B2. rewrite E in B1. rewrite B1 in B2.
        destruct (i <? P)%nat, (j <? P)%nat; congruence. }
      destruct (Nat.ltb_spec i P) as [Li|Gi]; destruct (Nat.ltb_spec j P) as [Lj|Gj]; try discriminate.
      + apply IH; [lia| | |exact E]; assumption.
      + assert (E' : sob V (i - P) = sob V (j - P)).
        { replace i with (1 * P + (i - P))%nat in E by lia.
          replace j with (1 * P + (j - P))%nat in E by lia.
          unfold P in E at 1 3. rewrite !sob_block in E by (fold P; lia).
          apply (f_equal (Z.lxor (sob V (1 * 2 ^ k)))) in E.
          rewrite <- !Z.lxor_assoc, Z.lxor_nilpotent, !Z.lxor_0_l in E. exact E. }
        apply IH in E'; lia.
  Qed.

  (** The top k bits of an aligned block of 2^k points. *)
  Lemma lxor_top a b s : 0 <= s -> Z.lxor a b / 2 ^ s = Z.lxor (a / 2 ^ s) (b / 2 ^ s).
  Proof. intros Hs. rewrite <- !Z.shiftr_div_pow2 by exact Hs. apply Z.shiftr_lxor. Qed.

  Lemma low_zero_div_inj s x y :
    (forall b, 0 <= b < s -> Z.testbit x b = false) -> (forall b, 0 <= b < s -> Z.testbit y b = false) ->
    0 <= s -> x / 2 ^ s = y / 2 ^ s -> x = y.
  Proof.
    intros Hx Hy Hs E. apply Z.bits_inj'. intros n Hn.
    destruct (Z.lt_ge_cases n s) as [L|G].
    - rewrite Hx, Hy by lia. reflexivity.
    - rewrite <- !Z.shiftr_div_pow2 in E by exact Hs.
      apply (f_equal (fun z => Z.testbit z (n - s))) in E.
      rewrite !Z.shiftr_spec in E by lia.
      replace (n - s + s) with n in E by lia. exact E.
  Qed.

  Lemma block_perm k a : (k <= M)%nat -> (a * 2 ^ k + 2 ^ k <= 2 ^ M)%nat ->
    Permutation (map (fun r => sob V (a * 2 ^ k + r) / p2 (M - k)) (seq 0 (2 ^ k))) (zrange (2 ^ k)).
  Proof.
    intros Hk Ha. pose proof (Nat.pow_nonzero 2 k ltac:(lia)) as HP.
    assert (Hrange : forall i, (i < 2 ^ M)%nat -> 0 <= sob V i / p2 (M - k) < p2 k).
    { intros i Hi. pose proof (sob_nonneg i Hi). pose proof (sob_lt i Hi). pose proof (p2_pos (M - k)).
      split; [apply Z.div_pos; lia|]. apply Z.div_lt_upper_bound; [lia|].
      rewrite <- p2_add. replace (M - k + k)%nat with M by lia. assumption. }
    apply nodup_range_perm.
    - apply NoDup_map_in; [|apply seq_NoDup].
      intros x y Hx Hy E. apply in_seq in Hx. apply in_seq in Hy.
      rewrite !sob_block in E by lia. unfold p2 in E. rewrite !lxor_top in E by lia.
      apply (f_equal (Z.lxor (sob V (a * 2 ^ k) / 2 ^ Z.of_nat (M - k)))) in E.
      rewrite <- !Z.lxor_assoc, Z.lxor_nilpotent, !Z.lxor_0_l in E.
      apply low_zero_div_inj in E; [|intros b Hb; apply (sob_low k); lia..|lia].
      apply (sob_inj k) in E; lia.
    - rewrite map_length, seq_length. reflexivity.
    - intros x Hx. apply in_map_iff in Hx. destruct Hx as (r & <- & Hr). apply in_seq in Hr.
      rewrite p2_nat. apply Hrange. lia.
  Qed.

  (** The w-bit sequence. *)
  Variable w : nat.
  Hypothesis Hw : (w <= M)%nat.

  Definition sobw (i : nat) : Z := sob V i / p2 (M - w).

  Lemma sobw_perm : Permutation (map sobw (seq 0 (2 ^ w))) (zrange (2 ^ w)).
  Proof.
    pose proof (block_perm w 0 Hw) as H. cbn [Nat.mul Nat.add] in H. apply H.
    apply Nat.pow_le_mono_r; lia.
  Qed.

  Lemma pow_w_M : (2 ^ w <= 2 ^ M)%nat.
  Proof. apply Nat.pow_le_mono_r; lia. Qed.

  Lemma sobw_range i : (i < 2 ^ w)%nat -> 0 <= sobw i < p2 w.
  Proof.
    intros Hi. pose proof pow_w_M as HwM. unfold sobw.
    pose proof (sob_nonneg i ltac:(lia)). pose proof (sob_lt i ltac:(lia)). pose proof (p2_pos (M - w)).
    split; [apply Z.div_pos; lia|]. apply Z.div_lt_upper_bound; [lia|].
    rewrite <- p2_add. replace (M - w + w)%nat with M by lia. assumption.
  Qed.

  Lemma sobw_top k i : (k <= w)%nat -> sobw i / p2 (w - k) = sob V i / p2 (M - k).
  Proof.
    intros Hk. unfold sobw. rewrite Z.div_div by (pose proof (p2_pos (M - w)); pose proof (p2_pos (w - k)); lia).
    rewrite <- p2_add. do 2 f_equal. lia.
  Qed.

  (** Number of block points below B, in units of 2^w. *)
  Lemma block_count k a B : (k <= w)%nat -> (a * 2 ^ k + 2 ^ k <= 2 ^ w)%nat -> 0 <= B <= p2 w ->
    Z.abs (countb (fun r => sobw (a * 2 ^ k + r) <? B) (seq 0 (2 ^ k)) * p2 w - p2 k * B) <= p2 w.
  Proof.
    intros Hk Ha HB. pose proof pow_w_M as HwM.
    pose proof (block_perm k a ltac:(lia) ltac:(lia)) as HP.
    set (D := p2 (w - k)). assert (HD : 0 < D) by apply p2_pos.
    assert (Hpw : p2 w = D * p2 k) by (unfold D; rewrite <- p2_add; f_equal; lia).
    pose proof (p2_pos k) as Hpk.
    set (q := B / D). pose proof (Z.div_mod B D ltac:(lia)) as Edm. fold q in Edm.
    pose proof (Z.mod_pos_bound B D HD) as Hrho. set (rho := B mod D) in *.
    assert (Hq0 : 0 <= q) by (apply Z.div_pos; lia).
    assert (Hq1 : q <= p2 k) by nia.
    (* lower bound *)
    assert (Lo : q <= countb (fun r => sobw (a * 2 ^ k + r) <? B) (seq 0 (2 ^ k))).
    { apply Z.le_trans with (countb (fun r => sob V (a * 2 ^ k + r) / p2 (M - k) <? q) (seq 0 (2 ^ k))).
      - rewrite <- (countb_map (fun v => v <? q) (fun r => sob V (a * 2 ^ k + r) / p2 (M - k))).
        rewrite (countb_perm _ _ _ HP), countb_lt_zrange, p2_nat. unfold zclamp. lia.
      - apply countb_mono. intros r Hr Ht. apply in_seq in Hr.
        rewrite <- sobw_top in Ht by exact Hk. fold D in Ht.
        apply Z.ltb_lt in Ht. apply Z.ltb_lt.
        pose proof (Z.mul_succ_div_gt (sobw (a * 2 ^ k + r)) D HD). nia. }
    (* upper bound *)
    assert (Up : rho = 0 /\ countb (fun r => sobw (a * 2 ^ k + r) <? B) (seq 0 (2 ^ k)) <= q \/
                 0 < rho /\ countb (fun r => sobw (a * 2 ^ k + r) <? B) (seq 0 (2 ^ k)) <= q + 1).
    { destruct (Z.eq_dec rho 0) as [E0|N0].
      - left. split; [exact E0|].
        apply Z.le_trans with (countb (fun r => sob V (a * 2 ^ k + r) / p2 (M - k) <? q) (seq 0 (2 ^ k))).
        + apply countb_mono. intros r Hr Ht. apply in_seq in Hr.
          rewrite <- sobw_top by exact Hk. fold D.
          apply Z.ltb_lt in Ht. apply Z.ltb_lt. apply Z.div_lt_upper_bound; lia.
        + rewrite <- (countb_map (fun v => v <? q) (fun r => sob V (a * 2 ^ k + r) / p2 (M - k))).
          rewrite (countb_perm _ _ _ HP), countb_lt_zrange, p2_nat. unfold zclamp. lia.
      - right. split; [lia|].
        apply Z.le_trans with (countb (fun r => sob V (a * 2 ^ k + r) / p2 (M - k) <? q + 1) (seq 0 (2 ^ k))).
        + apply countb_mono. intros r Hr Ht. apply in_seq in Hr.
          rewrite <- sobw_top by exact Hk. fold D.
          apply Z.ltb_lt in Ht. apply Z.ltb_lt. apply Z.div_lt_upper_bound; nia.
        + rewrite <- (countb_map (fun v => v <? q + 1) (fun r => sob V (a * 2 ^ k + r) / p2 (M - k))).
          rewrite (countb_perm _ _ _ HP), countb_lt_zrange, p2_nat. unfold zclamp. lia. }
    set (c := countb (fun r => sobw (a * 2 ^ k + r) <? B) (seq 0 (2 ^ k))) in *.
    replace (c * p2 w - p2 k * B) with (p2 k * (c * D - B)) by (rewrite Hpw; ring).
    rewrite Hpw. rewrite Z.abs_mul, (Z.abs_eq (p2 k)) by lia.
    rewrite (Z.mul_comm D). apply Z.mul_le_mono_nonneg_l; [lia|].
    apply Z.abs_le. destruct Up as [[U1 U2]|[U1 U2]]; nia.
  Qed.

  Lemma prefix_count B : 0 <= B <= p2 w -> forall k a n,
    (k <= w)%nat -> (a * 2 ^ k + 2 ^ k <= 2 ^ w)%nat -> (n < 2 ^ k)%nat ->
    Z.abs (countb (fun r => sobw (a * 2 ^ k + r) <? B) (seq 0 n) * p2 w - Z.of_nat n * B) <= Z.of_nat k * p2 w.
  Proof.
    intros HB. induction k as [|k IH]; intros a n Hk Ha Hn.
    - cbn in Hn. replace n with 0%nat by lia. cbn [seq countb]. lia.
    - assert (E2 : (2 ^ S k = 2 * 2 ^ k)%nat) by reflexivity.
      destruct (Nat.lt_ge_cases n (2 ^ k)) as [L|G].
      + specialize (IH (2 * a)%nat n ltac:(lia) ltac:(lia) L).
        replace (a * 2 ^ S k)%nat with (2 * a * 2 ^ k)%nat by lia.
        pose proof (p2_pos w). lia.
      + set (m := (n - 2 ^ k)%nat).
        replace n with (2 ^ k + m)%nat by lia.
        rewrite seq_app, countb_app.
        replace (a * 2 ^ S k)%nat with (2 * a * 2 ^ k)%nat by lia.
        pose proof (block_count k (2 * a) B ltac:(lia) ltac:(lia) HB) as H1.
        specialize (IH (2 * a + 1)%nat m ltac:(lia) ltac:(lia) ltac:(lia)).
        rewrite (countb_seq_offset _ (0 + 2 ^ k)). cbn [Nat.add].
        assert (Ec : countb (fun r => sobw ((2 * a + 1) * 2 ^ k + r) <? B) (seq 0 m)
                     = countb (fun r => sobw (2 * a * 2 ^ k + (2 ^ k + r)) <? B) (seq 0 m)).
        { apply countb_ext. intros r _. do 2 f_equal. lia. }
        rewrite Ec in IH.
        rewrite Nat2Z.inj_add, p2_nat.
        set (c1 := countb (fun r => sobw (2 * a * 2 ^ k + r) <? B) (seq 0 (2 ^ k))) in *.
        set (c2 := countb (fun r => sobw (2 * a * 2 ^ k + (2 ^ k + r)) <? B) (seq 0 m)) in *.
        rewrite Nat2Z.inj_succ. lia.
  Qed.

  (** Discrepancy: the first n points contain n*B/2^w points below B, up to w. *)
  Lemma sobw_discrepancy B n : 0 <= B <= p2 w -> (n <= 2 ^ w)%nat ->
    Z.abs (countb (fun i => sobw i <? B) (seq 0 n) * p2 w - Z.of_nat n * B) <= Z.of_nat w * p2 w.
  Proof.
    intros HB Hn.
    destruct (Nat.eq_dec n (2 ^ w)) as [->|Hne].
    - rewrite <- (countb_map (fun v => v <? B) sobw).
      rewrite (countb_perm _ _ _ sobw_perm), countb_lt_zrange, p2_nat. unfold zclamp.
      pose proof (p2_pos w). replace (Z.min (Z.max B 0) (p2 w)) with B by lia.
      replace (B * p2 w - p2 w * B) with 0 by ring. cbn [Z.abs]. nia.
    - pose proof (prefix_count B HB w 0 n ltac:(lia) ltac:(lia) ltac:(lia)) as H.
      cbn [Nat.mul Nat.add] in H. exact H.
  Qed.
End Dir.
