(** Properties C86-C87: the feedback counters of hw/kernel/div and hw/kernel/sqrt; the multipliers of hw/kernel/old. *)
Require Import Verif.BaseLemmas Verif.RtlMoreModel Verif.RtlMoreSpec Verif.RtlCountProof Verif.RtlMulProof.
Open Scope list_scope.
Open Scope Z_scope.

(** C86. GDIV_U (DEP = S d): after any history, over any further stretch of clocks, the quotient anded with the divisor has as many
    ones as the dividend, up to what the counter holds and the ones of the dividend that it can lose. *)
Theorem C86_gdiv_u : forall d g h, Forall (din_ok d) g -> Forall (din_ok d) h ->
  let qs := outs (gdiv_u d) (final (gdiv_u d) (gcnt_init d) g) h in
  - (p2 (S d) - 1) <= ones (map in_dividend h) - ones (map2 Z.land qs (map in_divisor h)) <= p2 (S d) - 1 + countb (gdiv_loss d) h.
Proof. exact @gdiv_u_stretch. Qed.
Print Assumptions C86_gdiv_u.
(** From reset the counter is half full. *)
Theorem C86_gdiv_u_reset : forall d h, Forall (din_ok d) h -> let qs := outs (gdiv_u d) (gcnt_init d) h in
  - p2 d <= ones (map in_dividend h) - ones (map2 Z.land qs (map in_divisor h)) <= p2 d - 1 + countb (gdiv_loss d) h.
Proof. exact @gdiv_u_total. Qed.
Print Assumptions C86_gdiv_u_reset.
Definition ex_div : list (Z * Z * Z) := [(0,1,1); (2,0,1); (1,1,1); (3,1,1); (0,0,1); (2,1,1); (1,0,1); (0,1,0)].
Example C86_gdiv_u_ex : outs (gdiv_u 1) (gcnt_init 1) ex_div = [1; 0; 1; 0; 1; 0; 1; 1] /\
  ones (map in_dividend ex_div) = 5 /\
  ones (map2 Z.land (outs (gdiv_u 1) (gcnt_init 1) ex_div) (map in_divisor ex_div)) = 4 /\ countb (gdiv_loss 1) ex_div = 2.
Proof. repeat split. Qed.
(** The losses are real: with the largest random number, 1/1 is 0 for ever. *)
Theorem C86_gdiv_u_refuted : forall d n, exists h, Forall (din_ok d) h /\ ones (map in_divisor h) = Z.of_nat n /\
  ones (map in_dividend h) - ones (map2 Z.land (outs (gdiv_u d) (gcnt_init d) h) (map in_divisor h)) = Z.of_nat n.
Proof.
  intros d n. exists (repeat (p2 (S d) - 1, 1, 1) n). pose proof (p2_pos (S d)).
  split; [apply Forall_forall; intros x Hx; apply repeat_spec in Hx; subst x; split; cbn [fst snd]; [lia|split; right; reflexivity]|].
  rewrite gdiv_u_stuck, !map_repeat. unfold in_dividend, in_divisor. cbn [fst snd]. rewrite ones_repeat1. split; [reflexivity|].
  replace (map2 Z.land (repeat 0 n) (repeat 1 n)) with (repeat 0 n); [rewrite zero_ones; lia|].
  clear. induction n as [|n IH]; [reflexivity|]. cbn [repeat map2]. rewrite <- IH. reflexivity.
Qed.
Print Assumptions C86_gdiv_u_refuted.

(** GDIV_B over the values +1/-1 of the bits: the products of dividend and divisor, and of the divisor, the divisor of the clock
    before and the quotient, have the same sum up to what the counter holds and the changes of the divisor. *)
Theorem C86_gdiv_b : forall d g h, Forall (fun p => din_ok d p /\ fst (fst p) < p2 (S d) - 1) g ->
  Forall (fun p => din_ok d p /\ fst (fst p) < p2 (S d) - 1) h ->
  let st := final (gdiv_b d) (gdiv_b_init d) g in let qs := outs (gdiv_b d) st h in
  let before := last (map in_divisor g) 0 in
  let a := map pm (map in_dividend h) in let b := map pm (map in_divisor h) in let b' := map pm (delayed before (map in_divisor h)) in
  Z.abs (zsum (map2 Z.mul a b) - zsum (map2 Z.mul (map2 Z.mul b b') (map pm qs))) <=
  2 * (p2 (S d) - 1) + 2 * changes before (map in_divisor h).
Proof. intros d g h Hg Hh. pose proof (gdiv_b_stretch d g h Hg Hh) as H. cbv zeta in *. rewrite gdiv_b_divisor in H. exact H. Qed.
Print Assumptions C86_gdiv_b.
Definition ex_divb : list (Z * Z * Z) := [(0,1,1); (2,0,1); (1,1,1); (2,1,0); (0,0,0); (2,1,1); (1,0,1); (0,1,0)].
Example C86_gdiv_b_ex : let qs := outs (gdiv_b 1) (gdiv_b_init 1) ex_divb in
  let a := map pm (map in_dividend ex_divb) in let b := map pm (map in_divisor ex_divb) in
  let b' := map pm (delayed 0 (map in_divisor ex_divb)) in
  qs = [1; 1; 1; 0; 1; 0; 0; 1] /\ zsum (map2 Z.mul a b) = 0 /\ zsum (map2 Z.mul (map2 Z.mul b b') (map pm qs)) = 2 /\
  changes 0 (map in_divisor ex_divb) = 4.
Proof. repeat split. Qed.

(** GSQRT_U: the output anded with itself one clock later has as many ones as the input, up to what the counter holds. *)
Theorem C86_gsqrt_u : forall d g h, (1 <= d)%nat -> Forall (sin_ok d) g -> Forall (sin_ok d) h ->
  let os := outs (gsqrt_u d) (final (gsqrt_u d) (gsqrt_init d) g) h in
  let before := last (outs (gsqrt_u d) (gsqrt_init d) g) 0 in
  Z.abs (ones (map snd h) - ones (map2 Z.land os (delayed before os))) <= p2 (S d) - 1.
Proof. intros d g h Hd Hg Hh. pose proof (gsqrt_u_stretch d g h Hd Hg Hh) as H. cbv zeta in *. rewrite gsqrt_u_prev in H. exact H. Qed.
Print Assumptions C86_gsqrt_u.
Theorem C86_gsqrt_u_reset : forall d h, (1 <= d)%nat -> Forall (sin_ok d) h -> let os := outs (gsqrt_u d) (gsqrt_init d) h in
  - p2 d <= ones (map snd h) - ones (map2 Z.land os (delayed 0 os)) < p2 d.
Proof. exact @gsqrt_u_total. Qed.
Print Assumptions C86_gsqrt_u_reset.
Definition ex_sq : list (Z * Z) := [(0,1); (1,0); (0,1); (1,1); (0,0); (1,1); (1,0); (0,1); (0,1)].
Example C86_gsqrt_u_ex : let os := outs (gsqrt_u 1) (gsqrt_init 1) ex_sq in os = [1; 1; 1; 1; 1; 0; 1; 1; 1] /\
  ones (map snd ex_sq) = 6 /\ ones (map2 Z.land os (delayed 0 os)) = 6.
Proof. repeat split. Qed.
(** Without the condition on the random numbers: the root of 1 is 0 for ever. *)
Theorem C86_gsqrt_u_refuted : forall d n, exists h, Forall (fun p => 0 <= fst p < p2 (S d) /\ bit (snd p)) h /\
  ones (map snd h) = Z.of_nat n /\ outs (gsqrt_u d) (gsqrt_init d) h = repeat 0 n.
Proof.
  intros d n. exists (repeat (p2 (S d) - 1, 1) n). pose proof (p2_pos (S d)).
  split; [apply Forall_forall; intros x Hx; apply repeat_spec in Hx; subst x; split; cbn [fst snd]; [lia|right; reflexivity]|].
  rewrite gsqrt_u_stuck, map_repeat. split; [apply ones_repeat1|reflexivity].
Qed.
Print Assumptions C86_gsqrt_u_refuted.
(** GSQRT_B: the same with the exclusive-nor; only zeros of the input that meet two zeros of the output can be lost. *)
Theorem C86_gsqrt_b : forall d g h, (1 <= d)%nat -> Forall (sin_ok d) g -> Forall (sin_ok d) h ->
  let st := final (gsqrt_b d) (gsqrt_init d) g in let os := outs (gsqrt_b d) st h in
  let before := last (outs (gsqrt_b d) (gsqrt_init d) g) 0 in
  let e := ones (map snd h) - zsum (map2 agree os (delayed before os)) in
  - (p2 (S d) - 1) - countb gsqrt_loss (combine (map snd h) (combine os (delayed before os))) <= e <= p2 (S d) - 1.
Proof. intros d g h Hd Hg Hh. pose proof (gsqrt_b_stretch d g h Hd Hg Hh) as H. cbv zeta in *. rewrite gsqrt_b_prev in H. exact H. Qed.
Print Assumptions C86_gsqrt_b.
Example C86_gsqrt_b_ex : let h := repeat (1, 0) 8 in let os := outs (gsqrt_b 1) (gsqrt_init 1) h in os = [1; 1; 0; 0; 0; 0; 0; 0] /\
  ones (map snd h) = 0 /\ zsum (map2 agree os (delayed 0 os)) = 6 /\
  countb gsqrt_loss (combine (map snd h) (combine os (delayed 0 os))) = 5.
Proof. repeat split. Qed.

(** C87. gMUL_uni and gMUL_bi clock by clock, for any loads: both operands are compared with the same number. *)
Theorem C87_gmul_uni_bits : forall w h t, (1 <= w)%nat -> (t < length h)%nat ->
  nth t (outs (gmul_uni w) gmul_init h) 0 =
  b2z (free_run w t <? Z.min (latched (map port_a (firstn t h))) (latched (map port_b (firstn t h)))).
Proof. exact @gmul_uni_nth. Qed.
Print Assumptions C87_gmul_uni_bits.
Theorem C87_gmul_bi_bits : forall w h t, (1 <= w)%nat -> (t < length h)%nat ->
  nth t (outs (gmul_bi w) gmul_init h) 0 =
  b2z (Bool.eqb (free_run w t <? latched (map port_a (firstn t h))) (free_run w t <? latched (map port_b (firstn t h)))).
Proof. exact @gmul_bi_nth. Qed.
Print Assumptions C87_gmul_bi_bits.
(** Over each period the unipolar one counts the smaller operand, the bipolar one the distance of the operands. *)
Theorem C87_gmul_uni : forall w A B p h, (1 <= w)%nat -> 0 <= A <= p2 w -> 0 <= B <= p2 w -> Forall no_load h -> length h = (2 ^ w)%nat ->
  ones (outs (gmul_uni w) ((A, B), (rng_after w (p * 2 ^ w), rng_after w (p * 2 ^ w))) h) = Z.min A B.
Proof. exact @gmul_uni_period. Qed.
Print Assumptions C87_gmul_uni.
Theorem C87_gmul_bi : forall w A B p h, (1 <= w)%nat -> 0 <= A <= p2 w -> 0 <= B <= p2 w -> Forall no_load h -> length h = (2 ^ w)%nat ->
  ones (outs (gmul_bi w) ((A, B), (rng_after w (p * 2 ^ w), rng_after w (p * 2 ^ w))) h) = p2 w - Z.abs (A - B).
Proof. exact @gmul_bi_period. Qed.
Print Assumptions C87_gmul_bi.
Example C87_gmul_ex : outs (gmul_uni 2) gmul_init ((2, 3, 1, 1) :: repeat (0, 0, 0, 0) 4) = [0; 0; 0; 1; 0] /\
  outs (gmul_bi 2) gmul_init ((2, 3, 1, 1) :: repeat (0, 0, 0, 0) 4) = [1; 0; 1; 1; 1] /\
  ones (outs (gmul_uni 3) ((5, 6), (rng_after 3 8, rng_after 3 8)) (repeat (0, 0, 0, 0) 8)) = 5 /\
  ones (outs (gmul_bi 3) ((5, 2), (rng_after 3 8, rng_after 3 8)) (repeat (0, 0, 0, 0) 8)) = 5.
Proof. repeat split. Qed.
(** Neither is the product: 1/2 * 1/2 comes out as 1/2 and 0 * 0 as 1, at every width. *)
Theorem C87_gmul_uni_refuted : forall w p, (2 <= w)%nat -> exists A h, 0 <= A < p2 w /\ Forall no_load h /\ length h = (2 ^ w)%nat /\
  4 * (ones (outs (gmul_uni w) ((A, A), (rng_after w (p * 2 ^ w), rng_after w (p * 2 ^ w))) h) * p2 w - A * A) = p2 w * p2 w.
Proof.
  intros w p Hw. exists (p2 (w - 1)), (repeat (0, 0, 0, 0) (2 ^ w)). pose proof (p2_pos (w - 1)).
  assert (p2 w = 2 * p2 (w - 1)) by (rewrite <- p2_S; f_equal; lia).
  split; [lia|]. split; [apply no_load_repeat|]. split; [apply repeat_length|].
  apply gmul_uni_square; [exact Hw|apply no_load_repeat|apply repeat_length].
Qed.
Print Assumptions C87_gmul_uni_refuted.
Theorem C87_gmul_bi_refuted : forall w p, (1 <= w)%nat -> exists A h, 2 * A = p2 w /\ Forall no_load h /\ length h = (2 ^ w)%nat /\
  ones (outs (gmul_bi w) ((A, A), (rng_after w (p * 2 ^ w), rng_after w (p * 2 ^ w))) h) = p2 w.
Proof.
  intros w p Hw. exists (p2 (w - 1)), (repeat (0, 0, 0, 0) (2 ^ w)).
  assert (p2 w = 2 * p2 (w - 1)) by (rewrite <- p2_S; f_equal; lia).
  split; [lia|]. split; [apply no_load_repeat|]. split; [apply repeat_length|].
  apply gmul_bi_zero; [exact Hw|apply no_load_repeat|apply repeat_length].
Qed.
Print Assumptions C87_gmul_bi_refuted.

(** dMUL_uni and dMUL_bi hold the second random number at its first value for the first 2^w - 1 periods after reset: of the second
    operand only whether it is 0 matters. *)
Theorem C87_dmul_uni : forall w A B h, (1 <= w)%nat -> Forall no_load h -> (length h <= (2 ^ w - 1) * 2 ^ w)%nat ->
  outs (dmul_uni w) ((0, 0), ((A, B), (sobol_rtl_init, sobol_rtl_init))) h =
  map (fun k => Z.land (b2z (free_run w k <? A)) (b2z (0 <? B))) (seq 0 (length h)).
Proof. exact @dmul_uni_outs. Qed.
Print Assumptions C87_dmul_uni.
Theorem C87_dmul_bi : forall w A B h, (1 <= w)%nat -> Forall no_load h -> (length h <= (2 ^ w - 1) * 2 ^ w)%nat ->
  outs (dmul_bi w) ((0, 0), ((A, B), (sobol_rtl_init, sobol_rtl_init))) h =
  map (fun k => b2z (Bool.eqb (free_run w k <? A) (0 <? B))) (seq 0 (length h)).
Proof. exact @dmul_bi_outs. Qed.
Print Assumptions C87_dmul_bi.
Theorem C87_dmul_uni_count : forall w A B K h, (1 <= w)%nat -> 0 <= A <= p2 w -> Forall no_load h -> (K <= 2 ^ w - 1)%nat ->
  length h = (K * 2 ^ w)%nat ->
  ones (outs (dmul_uni w) ((0, 0), ((A, B), (sobol_rtl_init, sobol_rtl_init))) h) = if 0 <? B then Z.of_nat K * A else 0.
Proof. exact @dmul_uni_count. Qed.
Print Assumptions C87_dmul_uni_count.
Example C87_dmul_ex : let run B := outs (dmul_uni 2) ((0, 0), ((3, B), (sobol_rtl_init, sobol_rtl_init))) (repeat (0, 0, 0, 0) 16) in
  run 1 = [1; 1; 0; 1; 0; 1; 1; 1; 1; 1; 0; 1; 0; 0; 0; 0] /\ run 3 = [1; 1; 0; 1; 0; 1; 1; 1; 1; 1; 0; 1; 0; 1; 0; 1] /\
  outs (dmul_bi 1) ((0, 0), ((1, 1), (sobol_rtl_init, sobol_rtl_init))) (repeat (0, 0, 0, 0) 2) = [1; 0].
Proof. repeat split. Qed.

(** tMUL_uni: a load of A and B into an idle multiplier (whatever it multiplied before): two idle clocks, A clocks of comparisons of B
    with A consecutive numbers of the generator, then idle again. *)
Theorem C87_tmul_uni : forall w A B B0 k m h, (1 <= w)%nat -> 0 <= A < p2 w -> Forall no_load h -> length h = (S (Z.to_nat A) + m)%nat ->
  let st := ((0, 1, B0), rng_after w k) in
  outs (tmul_uni w) st (tmul_load_in A B :: h) =
    (0, 1) :: (0, 1) :: map (fun i => (b2z (free_run w (k + i) <? B), 0)) (seq 0 (Z.to_nat A)) ++ repeat (0, 1) m /\
  final (tmul_uni w) st (tmul_load_in A B :: h) = ((0, 1, B), rng_after w (k + Z.to_nat A)).
Proof. exact @tmul_uni_product. Qed.
Print Assumptions C87_tmul_uni.
(** The first product after reset is exact up to w bits. *)
Theorem C87_tmul_uni_count : forall w A B m h, (1 <= w)%nat -> 0 <= A < p2 w -> 0 <= B <= p2 w -> Forall no_load h ->
  length h = (S (Z.to_nat A) + m)%nat ->
  let n := ones (map fst (outs (tmul_uni w) tmul_init (tmul_load_in A B :: h))) in
  Z.abs (n * p2 w - A * B) <= Z.of_nat w * p2 w.
Proof. exact @tmul_uni_count. Qed.
Print Assumptions C87_tmul_uni_count.
(** tMUL_bi: the idle clocks repeat one frozen comparison. *)
Theorem C87_tmul_bi : forall w A B B0 k m h, (1 <= w)%nat -> 0 <= A < p2 w -> Forall no_load h -> length h = (S (Z.to_nat A) + m)%nat ->
  let st := ((0, 1, B0), rng_after w k) in
  outs (tmul_bi w) st (tmul_load_in A B :: h) =
    (b2z (B0 <=? free_run w k), 1) :: (b2z (B <=? free_run w k), 1) ::
    map (fun i => (b2z (free_run w (k + i) <? B), 0)) (seq 0 (Z.to_nat A)) ++ repeat (b2z (B <=? free_run w (k + Z.to_nat A)), 1) m /\
  final (tmul_bi w) st (tmul_load_in A B :: h) = ((0, 1, B), rng_after w (k + Z.to_nat A)).
Proof. exact @tmul_bi_product. Qed.
Print Assumptions C87_tmul_bi.
Example C87_tmul_ex :
  outs (tmul_uni 3) tmul_init (tmul_load_in 5 6 :: repeat (0, 0, 0, 0) 9) =
    [(0, 1); (0, 1); (1, 0); (1, 0); (0, 0); (1, 0); (1, 0); (0, 1); (0, 1); (0, 1)] /\
  outs (tmul_bi 3) tmul_init (tmul_load_in 5 6 :: repeat (0, 0, 0, 0) 9) =
    [(1, 1); (0, 1); (1, 0); (1, 0); (0, 0); (1, 0); (1, 0); (1, 1); (1, 1); (1, 1)].
Proof. repeat split. Qed.
(** So it is no bipolar product: -1 * 0 comes out as -1, at every width and for ever. *)
Theorem C87_tmul_bi_refuted : forall w m, (1 <= w)%nat -> exists A B h, A = 0 /\ 2 * B = p2 w /\ Forall no_load h /\ length h = S m /\
  map fst (outs (tmul_bi w) tmul_init (tmul_load_in A B :: h)) = 1 :: repeat 0 (S m).
Proof.
  intros w m Hw. exists 0, (p2 (w - 1)), (repeat (0, 0, 0, 0) (S m)).
  assert (p2 w = 2 * p2 (w - 1)) by (rewrite <- p2_S; f_equal; lia).
  split; [reflexivity|]. split; [lia|]. split; [apply no_load_repeat|]. split; [apply repeat_length|].
  apply tmul_bi_silent; [exact Hw|apply no_load_repeat|apply repeat_length].
Qed.
Print Assumptions C87_tmul_bi_refuted.
