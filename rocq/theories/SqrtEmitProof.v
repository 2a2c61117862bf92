(** Proofs for C97: the square root by emission (FSUSqrt with emit on). *)
Require Import Verif.BaseLemmas Verif.GenModel Verif.ShuffleModel Verif.AddModel Verif.KernelModel Verif.DivModel Verif.ShuffleProof
  Verif.DivProof Verif.SobolProof Verif.GenProof Verif.RtlModel Verif.RtlRngProof Verif.SqrtEmitSpec.
From Coq Require Import Lia.
Open Scope Z_scope.

Lemma bits_nth l t : bits l -> bit (nth t l 0).
Proof.
  intros H. destruct (Nat.lt_ge_cases t (length l)) as [Ht|Ht].
  - unfold bits in H. rewrite Forall_forall in H. apply H, nth_In, Ht.
  - rewrite nth_overflow by exact Ht. left. reflexivity.
Qed.

Lemma ones_step l t : bits l -> (t < length l)%nat -> ones (firstn (S t) l) = ones (firstn t l) + nth t l 0.
Proof.
  intros Hb Ht. rewrite (firstn_S_nth l t 0 Ht). apply ones_snoc. apply (bits_nth l t Hb).
Qed.

Lemma Forall2_nth_le l l' : Forall2 (fun y x => y <= x) l l' -> forall t, nth t l 0 <= nth t l' 0.
Proof. induction 1 as [|y x l l' H _ IH]; intros [|t]; cbn; first [lia | apply IH]. Qed.

Lemma reinjected_step n os us t : reinjected n os us (S (S t)) = reinjected n os us (S t) + emitted n os us t.
Proof.
  unfold reinjected. cbn [Nat.sub]. rewrite Nat.sub_0_r, seq_S, map_app, zsum_app. cbn. lia.
Qed.

Lemma lag_step n os t : (n <= t)%nat -> lag_product n os (S t) = lag_product n os t + nth t os 0 * nth (t - n) os 0.
Proof.
  intros H. unfold lag_product. replace (S t - n)%nat with (S (t - n)) by lia. rewrite seq_S, map_app, zsum_app.
  replace (n + (t - n))%nat with t by lia. cbn. lia.
Qed.
Lemma lag_small n os t : (t <= n)%nat -> lag_product n os t = 0.
Proof. intros H. unfold lag_product. replace (t - n)%nat with 0%nat by lia. reflexivity. Qed.

Section Emit.
  Variables (m : mode) (n : nat) (xs : list Z).
  Hypothesis Hn : (1 <= n <= 255)%nat.
  Hypothesis Hb : bits xs.
  Let o := outs (sqrt_emit_step m n) (sqrt_emit_init n) xs.
  Let u := match m with Unipolar => o | Bipolar => outs (bi2uni_step 1) bi2uni_init o end.
  Let N := length xs.
  Let x t := nth t xs 0.
  Let q t := nth t o 0.
  Let e t := emitted n o u t.
  (* ones waiting before cycle t, the re-injected bit included *)
  Let s t := ones (firstn t xs) + reinjected n o u (S t) - ones (firstn t o).

  Lemma em_bits : bits o.
  Proof. exact (proj1 (sqrt_emit_law m n xs Hn Hb)). Qed.
  Lemma em_len : length o = N.
  Proof. exact (proj1 (proj2 (sqrt_emit_law m n xs Hn Hb))). Qed.
  Lemma em_q t : bit (q t).
  Proof. apply bits_nth, em_bits. Qed.
  Lemma em_x t : bit (x t).
  Proof. apply bits_nth, Hb. Qed.
  Lemma em_u t : 0 <= nth t u 0 <= q t.
  Proof.
    unfold u, q. pose proof em_bits as B. destruct m.
    - pose proof (bits_nth o t B) as H. destruct H as [->| ->]; lia.
    - destruct (bi2uni_running_max 1 o B) as (Bu & F & _). pose proof (bits_nth _ t Bu) as H.
      split; [destruct H as [->| ->]; lia|]. exact (Forall2_nth_le _ _ F t).
  Qed.
  Lemma em_e t : 0 <= e t <= q t.
  Proof.
    unfold e, emitted. pose proof (em_u t) as U. destruct (t <? n)%nat.
    - pose proof (Z.mod_pos_bound (Z.of_nat t) 2 ltac:(lia)). nia.
    - pose proof (em_q (t - n)%nat) as Q. unfold q in Q. destruct Q as [->| ->]; nia.
  Qed.
  Lemma em_S t : (t < N)%nat -> s (S t) = s t + x t - q t + e t.
  Proof.
    intros Ht. unfold s. rewrite reinjected_step. pose proof em_len as L.
    rewrite (ones_step xs t Hb Ht), (ones_step o t em_bits) by lia. fold (x t) (q t) (e t). lia.
  Qed.
  Lemma em_0 : s 0 = 0.
  Proof. reflexivity. Qed.
  Lemma em_out t : (t < N)%nat -> q t = if 1 <=? x t + s t then 1 else 0.
  Proof.
    intros Ht. destruct (sqrt_emit_law m n xs Hn Hb) as (_ & _ & H). destruct (H t ltac:(unfold N in Ht; lia)) as [_ H'].
    fold o in H'. fold u in H'. specialize (H' Ht). unfold q. rewrite H'. unfold s, x. rewrite (ones_step xs t Hb Ht).
    replace (ones (firstn t xs) + nth t xs 0 + reinjected n o u (S t) - ones (firstn t o))
      with (nth t xs 0 + (ones (firstn t xs) + reinjected n o u (S t) - ones (firstn t o))) by lia. reflexivity.
  Qed.
  Lemma em_pos : forall t, (t <= N)%nat -> 0 <= s t.
  Proof.
    induction t as [|t IH]; intros Ht; [rewrite em_0; lia|]. specialize (IH ltac:(lia)).
    rewrite em_S by lia. pose proof (em_out t ltac:(lia)) as Q. pose proof (em_e t). pose proof (em_x t) as X.
    destruct (Z.leb_spec 1 (x t + s t)); destruct X; lia.
  Qed.
  Lemma em_ge t : (t < N)%nat -> x t <= q t.
  Proof.
    intros Ht. rewrite (em_out t Ht). pose proof (em_pos t ltac:(lia)). pose proof (em_x t) as X.
    destruct (Z.leb_spec 1 (x t + s t)); destruct X; lia.
  Qed.
  (* what the first n outputs re-inject *)
  Lemma em_first : forall t, (t <= n)%nat -> (t <= N)%nat ->
    0 <= ones (firstn t o) - ones (firstn t xs) /\
    s t + (ones (firstn t o) - ones (firstn t xs)) <= Z.of_nat t / 2.
  Proof.
    induction t as [|t IH]; intros Ht HN; [rewrite em_0; cbn; lia|]. destruct (IH ltac:(lia) ltac:(lia)) as [I1 I2].
    pose proof em_len as L. rewrite em_S, (ones_step xs t Hb), (ones_step o t em_bits) by (fold N; lia).
    fold (x t) (q t). pose proof (em_ge t ltac:(lia)) as G. split; [lia|].
    unfold e, emitted. destruct (Nat.ltb_spec t n); [|lia]. pose proof (em_u t). pose proof (em_q t) as Q.
    assert (nth t u 0 * (Z.of_nat t mod 2) <= Z.of_nat t mod 2).
    { pose proof (Z.mod_pos_bound (Z.of_nat t) 2 ltac:(lia)). destruct Q; nia. }
    rewrite Nat2Z.inj_succ. lia.
  Qed.

  Section Periodic.
    Hypothesis Hp : repeats n xs.
    Lemma per_x t : (n <= t)%nat -> (t < N)%nat -> x (t - n)%nat = x t.
    Proof. intros H1 H2. unfold x. rewrite <- (Hp (t - n)%nat) by (fold N; lia). f_equal. lia. Qed.
    (* from cycle n on: no more is waiting than before; while something is waiting every output is 1 *)
    Lemma per_inv : forall d, (n + d <= N)%nat -> let t := (n + d)%nat in
      (0 < s t -> (forall i, (n <= i < t)%nat -> q i = 1) /\
         ones (firstn t o) - ones (firstn t xs) + s t <= Z.of_nat n / 2 + Z.min (Z.of_nat d) (Z.of_nat n)) /\
      ones (firstn t o) - ones (firstn t xs) <= Z.of_nat n / 2 + Z.of_nat n.
    Proof.
      induction d as [|d IH]; intros Hd t.
      - unfold t. rewrite Nat.add_0_r in *. destruct (em_first n ltac:(lia) Hd) as [F1 F2]. pose proof (em_pos n Hd).
        split; [|lia]. intros _. split; [intros i Hi; lia|]. lia.
      - specialize (IH ltac:(lia)). cbv zeta in IH. unfold t. clear t. replace (n + S d)%nat with (S (n + d)) by lia.
        set (t := (n + d)%nat) in *. destruct IH as [I1 I2]. pose proof em_len as L.
        assert (Ht : (t < N)%nat) by (unfold t; lia).
        pose proof (em_pos t ltac:(lia)) as P. pose proof (em_out t Ht) as Q. pose proof (em_x t) as X. pose proof (em_e t) as E.
        pose proof (em_S t Ht) as ES. rewrite (ones_step xs t Hb Ht), (ones_step o t em_bits) by lia. fold (x t) (q t).
        assert (Ee : e t = nth t u 0 * (1 - q (t - n)%nat)).
        { unfold e, emitted. destruct (Nat.ltb_spec t n); [unfold t in *; lia|reflexivity]. }
        pose proof (em_u t) as U. pose proof (em_q (t - n)%nat) as Qn.
        destruct (Z.eq_dec (s t) 0) as [Z0|Z0].
        + assert (Eq : q t = x t). { rewrite Q, Z0. destruct X as [->| ->]; reflexivity. }
          assert (e t = 0).
          { destruct X as [X|X]; [lia|]. pose proof (per_x t ltac:(unfold t; lia) Ht) as Px.
            pose proof (em_ge (t - n)%nat ltac:(lia)) as G. destruct Qn as [Qn|Qn]; [lia|]. rewrite Ee, Qn. lia. }
          split; [lia|lia].
        + destruct (I1 ltac:(lia)) as [J1 J2]. assert (Q1 : q t = 1).
          { rewrite Q. destruct (Z.leb_spec 1 (x t + s t)); [reflexivity|]. destruct X; lia. }
          assert (E1 : e t <= 1) by lia.
          assert (E2 : (n <= d)%nat -> e t = 0).
          { intros G. rewrite Ee, (J1 (t - n)%nat) by (unfold t; lia). lia. }
          assert (K : ones (firstn t o) - ones (firstn t xs) + s t + e t <= Z.of_nat n / 2 + Z.min (Z.of_nat (S d)) (Z.of_nat n)).
          { destruct (Nat.le_gt_cases n d) as [G|G]; [rewrite (E2 G); lia|lia]. }
          split.
          * intros Hs. split.
            -- intros i Hi. destruct (Nat.eq_dec i t) as [->|]; [exact Q1|apply J1; lia].
            -- rewrite ES. lia.
          * pose proof (em_pos (S t) ltac:(lia)). lia.
    Qed.
    Lemma per_bound k : (k <= N)%nat ->
      ones (firstn k xs) <= ones (firstn k o) <= ones (firstn k xs) + Z.of_nat n + Z.of_nat n / 2.
    Proof.
      intros Hk. assert (G : forall j, (j <= k)%nat -> ones (firstn j xs) <= ones (firstn j o)).
      { induction j as [|j IH]; intros Hj; [cbn; lia|]. pose proof em_len as L.
        rewrite (ones_step xs j Hb), (ones_step o j em_bits) by (fold N; lia). specialize (IH ltac:(lia)).
        pose proof (em_ge j ltac:(lia)) as E. unfold x, q in E. lia. }
      split; [apply G; lia|]. destruct (Nat.le_gt_cases k n) as [H|H].
      - destruct (em_first k H Hk) as [_ F]. pose proof (em_pos k Hk).
        pose proof (Z.div_le_mono (Z.of_nat k) (Z.of_nat n) 2 ltac:(lia) ltac:(lia)). lia.
      - pose proof (per_inv (k - n)) as I. cbv zeta in I. replace (n + (k - n))%nat with k in I by lia.
        destruct (I Hk) as [_ I2]. lia.
    Qed.
  End Periodic.
End Emit.

Theorem emit_repeats : forall m n xs, (1 <= n <= 255)%nat -> bits xs -> repeats n xs ->
  let o := outs (sqrt_emit_step m n) (sqrt_emit_init n) xs in
  (forall t, (t < length xs)%nat -> nth t xs 0 <= nth t o 0) /\
  forall k, (k <= length xs)%nat ->
    ones (firstn k xs) <= ones (firstn k o) <= ones (firstn k xs) + Z.of_nat n + Z.of_nat n / 2.
Proof.
  intros m n xs Hn Hb Hp o. split; [intros t Ht; exact (em_ge m n xs Hn Hb t Ht)|].
  intros k Hk. exact (per_bound m n xs Hn Hb Hp k Hk).
Qed.

Theorem emit_square : forall n xs, (1 <= n <= 255)%nat -> bits xs ->
  let o := outs (sqrt_emit_step Unipolar n) (sqrt_emit_init n) xs in
  forall k, (k <= length xs)%nat ->
    - 1 <= ones (firstn k xs) - lag_product n o k <= Z.of_nat n + 1 + (Z.of_nat n + 1) / 2.
Proof.
  intros n xs Hn Hb o k Hk. destruct (sqrt_emit_law Unipolar n xs Hn Hb) as (B & L & H).
  destruct (H k Hk) as [D _]. fold o in B, L, D. clear H.
  assert (G : forall j, (j <= length xs)%nat ->
    let a := ones (firstn j o) - reinjected n o o (S j) - lag_product n o j in
    0 <= a <= (Z.of_nat (Nat.min j n) + 1) / 2).
  { induction j as [|j IH]; intros Hj; [cbn; lia|]. specialize (IH ltac:(lia)). cbv zeta in *.
    rewrite reinjected_step, (ones_step o j B) by lia. pose proof (bits_nth o j B) as Q.
    unfold emitted. destruct (Nat.ltb_spec j n).
    - rewrite lag_small in * by lia. replace (Nat.min j n) with j in IH by lia. replace (Nat.min (S j) n) with (S j) by lia.
      set (r := nth j o 0) in *. rewrite Nat2Z.inj_succ.
      assert (0 <= r - r * (Z.of_nat j mod 2) <= 1 - Z.of_nat j mod 2).
      { pose proof (Z.mod_pos_bound (Z.of_nat j) 2 ltac:(lia)). destruct Q as [->| ->]; lia. }
      lia.
    - rewrite lag_step by lia. replace (Nat.min (S j) n) with (Nat.min j n) by lia. lia. }
  destruct (Nat.eq_dec k 0) as [->|Hk0].
  { cbn. pose proof (Z.div_pos (Z.of_nat n + 1) 2 ltac:(lia) ltac:(lia)). lia. }
  specialize (G k Hk). cbv zeta in G. destruct k as [|k]; [lia|]. rewrite reinjected_step in G.
  assert (E : 0 <= emitted n o o k <= 1).
  { unfold emitted. pose proof (bits_nth o k B) as Q. destruct (k <? n)%nat.
    - pose proof (Z.mod_pos_bound (Z.of_nat k) 2 ltac:(lia)). destruct Q as [->| ->]; lia.
    - pose proof (bits_nth o (k - n) B) as Q'. destruct Q as [->| ->]; destruct Q' as [->| ->]; lia. }
  pose proof (Z.div_le_mono (Z.of_nat (Nat.min (S k) n) + 1) (Z.of_nat n + 1) 2 ltac:(lia) ltac:(lia)). lia.
Qed.

(** ** Which generated streams repeat *)
Lemma sob_mult V j : (forall k, (j <= k)%nat -> V k = 0) -> forall a, sob V (a * 2 ^ S j) = 0.
Proof.
  intros H. pose proof (Nat.pow_nonzero 2 (S j) ltac:(lia)) as P. induction a as [|a IH]; [reflexivity|].
  replace (S a * 2 ^ S j)%nat with (S (a * 2 ^ S j + (2 ^ S j - 1))) by (rewrite Nat.mul_succ_l; lia).
  change (sob V (S (a * 2 ^ S j + (2 ^ S j - 1))))
    with (Z.lxor (sob V (a * 2 ^ S j + (2 ^ S j - 1))) (V (lsz (N.of_nat (a * 2 ^ S j + (2 ^ S j - 1)))))).
  rewrite sob_block, IH, sob_last, (H j) by lia. rewrite (H (lsz _)); [reflexivity|].
  pose proof (lsz_spec (N.of_nat (a * 2 ^ S j + (2 ^ S j - 1)))) as L. set (z := lsz _) in *.
  destruct (Nat.le_gt_cases j z) as [G|G]; [exact G|exfalso].
  (* the index is -1 modulo 2^(j+1), hence modulo 2^(z+1) *)
  rewrite nat_N_Z, Nat2Z.inj_add, Nat2Z.inj_mul, Nat2Z.inj_sub, p2_nat in L by lia.
  replace (S j) with ((S j - S z) + S z)%nat in L by lia. rewrite p2_add in L.
  set (A := p2 (S j - S z)) in *. set (C := p2 (S z)) in *. pose proof (p2_S z) as EC. fold C in EC. pose proof (p2_ge_1 z).
  replace (Z.of_nat a * (A * C) + (A * C - Z.of_nat 1)) with (C - 1 + (Z.of_nat a * A + A - 1) * C) in L by lia.
  rewrite Z_mod_plus_full, Z.mod_small in L by lia. lia.
Qed.

Lemma sob_cyclic V j i a : (forall k, (j <= k)%nat -> V k = 0) -> (i < 2 ^ S j)%nat -> sob V (a * 2 ^ S j + i) = sob V i.
Proof. intros H Hi. rewrite sob_block by exact Hi. rewrite sob_mult by exact H. apply Z.lxor_0_l. Qed.

Definition high_dir (j k : nat) : Z := if (k <? j)%nat then p2 (j - 1 - k) else 0.

Lemma torch_high ext w j i : (w <= 30)%nat -> (j <= w)%nat -> torch_dim1 ext -> (i < 2 ^ w)%nat ->
  nth i (rng_seq ext KSobol w 1) 0 / p2 (w - j) = sob (high_dir j) i.
Proof.
  intros Hw Hj He Hi. rewrite torch_seq_nth by assumption. unfold p2 at 1.
  apply (sob_div _ _ _ (2 ^ w - 1)); [|lia]. intros k Hk. fold (p2 (w - j)).
  assert (Hkw : (k < w)%nat).
  { destruct (Nat.lt_ge_cases k w) as [L|G]; [exact L|]. pose proof (Nat.pow_le_mono_r 2 w k ltac:(lia) G).
    pose proof (Nat.pow_nonzero 2 w ltac:(lia)). lia. }
  unfold dirvec_dim1, high_dir. pose proof (p2_pos (w - j)). destruct (Nat.ltb_spec k j).
  - replace (w - 1 - k)%nat with ((j - 1 - k) + (w - j))%nat by lia. rewrite p2_add. apply Z.div_mul. lia.
  - apply Z.div_small. pose proof (p2_pos (w - 1 - k)). split; [lia|]. unfold p2. apply Z.pow_lt_mono_r; lia.
Qed.

Lemma bsgen_high ext w j c t : (w <= 30)%nat -> (S j <= w)%nat -> torch_dim1 ext ->
  bsgen_bit (c * p2 (w - j)) (rng_seq ext KSobol w 1) (Z.of_nat t) = b2z (c >? sob (high_dir j) (t mod 2 ^ S j)).
Proof.
  intros Hw Hj He. unfold bsgen_bit, zlen, nthZ. rewrite torch_seq_length by exact Hw.
  rewrite <- Nat2Z.inj_mod, Nat2Z.id. pose proof (Nat.pow_nonzero 2 w ltac:(lia)) as P.
  pose proof (Nat.pow_nonzero 2 (S j) ltac:(lia)) as P'.
  pose proof (Nat.mod_upper_bound t (2 ^ w) P) as Hm. set (i := (t mod 2 ^ w)%nat) in *.
  pose proof (torch_high ext w j i Hw ltac:(lia) He Hm) as D.
  assert (Ei : (t mod 2 ^ S j = i mod 2 ^ S j)%nat).
  { unfold i. replace w with (S j + (w - S j))%nat by lia. rewrite Nat.pow_add_r.
    rewrite Nat.mod_mul_r by (try exact P'; apply Nat.pow_nonzero; lia).
    rewrite (Nat.mul_comm (2 ^ S j)), Nat.mod_add by exact P'. rewrite Nat.mod_mod by exact P'. reflexivity. }
  assert (Es : sob (high_dir j) i = sob (high_dir j) (t mod 2 ^ S j)).
  { rewrite Ei, (Nat.div_mod i (2 ^ S j)) at 1 by exact P'. rewrite (Nat.mul_comm (2 ^ S j)). apply sob_cyclic.
    - intros k Hk. unfold high_dir. destruct (Nat.ltb_spec k j); [lia|reflexivity].
    - apply Nat.mod_upper_bound, P'. }
  rewrite <- Es, <- D. set (r := nth i _ 0). pose proof (p2_pos (w - j)) as Pp. f_equal.
  rewrite !Z.gtb_ltb. pose proof (Z.div_mod r (p2 (w - j)) ltac:(lia)). pose proof (Z.mod_pos_bound r (p2 (w - j)) Pp).
  set (d := r / p2 (w - j)) in *. set (p := p2 (w - j)) in *. destruct (Z.ltb_spec d c), (Z.ltb_spec r (c * p)); try reflexivity; nia.
Qed.

Theorem generated_repeats : forall ext w j c T, (w <= 30)%nat -> (S j <= w)%nat -> torch_dim1 ext ->
  repeats (2 ^ S j) (bsgen_stream (c * p2 (w - j)) (rng_seq ext KSobol w 1) 0 T).
Proof.
  intros ext w j c T Hw Hj He t Ht. unfold bsgen_stream in *. rewrite map_length, seq_length in Ht.
  assert (G : forall i, (i < T)%nat ->
    nth i (map (fun k => bsgen_bit (c * p2 (w - j)) (rng_seq ext KSobol w 1) (0 + Z.of_nat k)) (seq 0 T)) 0 =
    b2z (c >? sob (high_dir j) (i mod 2 ^ S j))).
  { intros i Hi. set (f := fun k => _). rewrite (nth_indep _ 0 (f 0%nat)) by (rewrite map_length, seq_length; exact Hi).
    rewrite map_nth, seq_nth by exact Hi. unfold f. cbn [Nat.add]. rewrite Z.add_0_l. apply bsgen_high; assumption. }
  rewrite !G by lia. do 3 f_equal. pose proof (Nat.pow_nonzero 2 (S j) ltac:(lia)).
  rewrite <- (Nat.mul_1_l (2 ^ S j)) at 1. apply Nat.mod_add. assumption.
Qed.

Theorem emit_generated : forall m ext w j c T, (w <= 30)%nat -> (S j <= w)%nat -> (j <= 6)%nat -> torch_dim1 ext ->
  let xs := bsgen_stream (c * p2 (w - j)) (rng_seq ext KSobol w 1) 0 T in
  let o := outs (sqrt_emit_step m (2 ^ S j)) (sqrt_emit_init (2 ^ S j)) xs in
  ones xs <= ones o <= ones xs + 3 * p2 j.
Proof.
  intros m ext w j c T Hw Hj H6 He xs o.
  assert (Hn : (1 <= 2 ^ S j <= 255)%nat).
  { pose proof (Nat.pow_nonzero 2 (S j) ltac:(lia)). pose proof (Nat.pow_le_mono_r 2 (S j) 7 ltac:(lia) ltac:(lia)) as L.
    change (2 ^ 7)%nat with 128%nat in L. lia. }
  destruct (emit_repeats m (2 ^ S j) xs Hn (GenProof.bsgen_stream_bits _ _ _ _) (generated_repeats ext w j c T Hw Hj He)) as [_ H].
  specialize (H (length xs) (le_n _)). fold o in H.
  assert (L : length o = length xs) by apply outs_length. rewrite firstn_all, <- L, firstn_all in H.
  rewrite p2_nat, p2_S in H. rewrite (Z.mul_comm 2 (p2 j)), Z.div_mul in H by lia. lia.
Qed.

Lemma every_other_nth T t : (t < T)%nat -> nth t (every_other T) 0 = 1 - Z.of_nat t mod 2.
Proof.
  intros H. unfold every_other. set (f := fun t => _). rewrite (nth_indep _ 0 (f 0%nat)) by (rewrite map_length, seq_length; exact H).
  rewrite map_nth, seq_nth by exact H. reflexivity.
Qed.
Lemma every_other_len T : length (every_other T) = T.
Proof. unfold every_other. rewrite map_length, seq_length. reflexivity. Qed.
Lemma every_other_bits T : bits (every_other T).
Proof.
  unfold bits, every_other. apply Forall_forall. intros x Hx. apply in_map_iff in Hx. destruct Hx as (t & <- & _).
  pose proof (Z.mod_pos_bound (Z.of_nat t) 2 ltac:(lia)). unfold bit. lia.
Qed.
Lemma every_other_ones : forall p, ones (every_other (2 * p)) = Z.of_nat p.
Proof.
  induction p as [|p IH]; [reflexivity|]. replace (2 * S p)%nat with (S (S (2 * p))) by lia.
  pose proof (every_other_bits (S (S (2 * p)))) as B. unfold every_other in *. rewrite !seq_S, !map_app, !Nat.add_0_l in *.
  cbn [map] in *. rewrite !Nat2Z.inj_succ in *.
  assert (E0 : Z.of_nat (2 * p) mod 2 = 0) by lia. assert (E1 : Z.succ (Z.of_nat (2 * p)) mod 2 = 1) by lia.
  rewrite E0, E1 in *. rewrite !ones_snoc by (unfold bit; lia). rewrite IH. lia.
Qed.

Theorem emit_half : forall m n p, (1 <= n)%nat -> (2 * n <= 255)%nat ->
  let xs := every_other (2 * p) in
  let o := outs (sqrt_emit_step m (2 * n)) (sqrt_emit_init (2 * n)) xs in
  ones xs = Z.of_nat p /\ zlen xs = 2 * Z.of_nat p /\ ones o <= Z.of_nat p + 3 * Z.of_nat n /\
  ((20 * n <= p)%nat -> 3 * (ones o * ones o) < 2 * (ones xs * zlen xs)).
Proof.
  intros m n p Hn H2 xs o. assert (E : ones xs = Z.of_nat p) by apply every_other_ones.
  assert (L : zlen xs = 2 * Z.of_nat p) by (unfold zlen, xs; rewrite every_other_len; lia).
  assert (R : repeats (2 * n) xs).
  { intros t Ht. unfold xs in *. rewrite every_other_len in Ht. rewrite !every_other_nth by lia. lia. }
  destruct (emit_repeats m (2 * n) xs ltac:(lia) (every_other_bits _) R) as [_ H]. specialize (H (length xs) (le_n _)). fold o in H.
  assert (Lo : length o = length xs) by apply outs_length. rewrite firstn_all, <- Lo, firstn_all in H.
  assert (K : ones o <= Z.of_nat p + 3 * Z.of_nat n) by lia.
  split; [exact E|]. split; [exact L|]. split; [exact K|]. intros G. rewrite E, L. pose proof (ones_nonneg o).
  assert (A : 20 * ones o <= 23 * Z.of_nat p) by lia. assert (0 < Z.of_nat p) by lia. nia.
Qed.
