(** C94-C96: the RTL multiply-accumulate units of hw/kernel/old/MAC16 that compare operands with Sobol numbers. *)
Require Import Verif.GenModel Verif.AddModel Verif.KernelModel Verif.LinearModel Verif.RtlModel Verif.SobolProof Verif.LinearProof Verif.RtlRngProof Verif.RtlUmacProof.
Require Import Verif.BaseLemmas Verif.RtlMacModel Verif.RtlMacSpec Verif.RtlMacProof Verif.RtlDmacProof.
Open Scope Z_scope.

(** ** C94: gainMAC *)

(** Every output bit of the three units, for any operands loaded at any time: all sixteen lanes compare both operands with the same number
    v, and the lane that is selected is fixed by the same v. *)
Theorem C94_uni h t : rows_ok h -> (S t < length h)%nat ->
  nth (S t) (outs gainmac_uni_scaled (gainmac_init mux_sel_init) h) 0 =
  b2z (bit_min (held_a h t) (held_b h t) (free_run 8 t) (Z.to_nat (lane_of (free_run 8 t)))).
Proof. exact (@gain_uni_nth h t). Qed.
Print Assumptions C94_uni.
Theorem C94_bi h t : rows_ok h -> (S t < length h)%nat ->
  nth (S t) (outs gainmac_bi_scaled (gainmac_init mux_sel_init) h) 0 =
  b2z (bit_same (held_a h t) (held_b h t) (free_run 8 t) (Z.to_nat (lane_of (free_run 8 t)))).
Proof. exact (@gain_bi_nth h t). Qed.
Print Assumptions C94_bi.
Theorem C94_or h t : rows_ok h -> (S t < length h)%nat ->
  nth (S t) (outs gainmac_uni_nonscaled (gainmac_init 0) h) 0 =
  b2z (free_run 8 t <? largest (fun i => Z.min (held_a h t i) (held_b h t i))).
Proof. exact (@gain_or_nth h t). Qed.
Print Assumptions C94_or.

(** The ones of one period in which the operands stay the same. *)
Theorem C94_uni_count h A B p : rows_ok h -> (p * 256 + 256 < length h)%nat -> holds h A B (p * 256) 256 ->
  ones_from (S (p * 256)) 256 (outs gainmac_uni_scaled (gainmac_init mux_sel_init) h) =
  countb (fun v => bit_min A B v (Z.to_nat (lane_of v))) (zrange 256).
Proof. exact (@gain_uni_count h A B p). Qed.
Print Assumptions C94_uni_count.
Theorem C94_bi_count h A B p : rows_ok h -> (p * 256 + 256 < length h)%nat -> holds h A B (p * 256) 256 ->
  ones_from (S (p * 256)) 256 (outs gainmac_bi_scaled (gainmac_init mux_sel_init) h) =
  countb (fun v => bit_same A B v (Z.to_nat (lane_of v))) (zrange 256).
Proof. exact (@gain_bi_count h A B p). Qed.
Print Assumptions C94_bi_count.
(** The non-scaled unit counts the largest of the smaller operands, not a sum. *)
Theorem C94_or_count h A B p : rows_ok h -> (p * 256 + 256 < length h)%nat -> holds h A B (p * 256) 256 ->
  (forall i, (i < 16)%nat -> 0 <= A i <= 256 /\ 0 <= B i <= 256) ->
  ones_from (S (p * 256)) 256 (outs gainmac_uni_nonscaled (gainmac_init 0) h) = largest (fun i => Z.min (A i) (B i)).
Proof. exact (@gain_or_count h A B p). Qed.
Print Assumptions C94_or_count.
(** The scaled unit counts a sixteenth of the sum of the smaller operands up to 57, and exactly that if they are equal in all lanes. *)
Theorem C94_uni_error h A B p : rows_ok h -> (p * 256 + 256 < length h)%nat -> holds h A B (p * 256) 256 ->
  (forall i, (i < 16)%nat -> 0 <= A i <= 256 /\ 0 <= B i <= 256) ->
  Z.abs (16 * ones_from (S (p * 256)) 256 (outs gainmac_uni_scaled (gainmac_init mux_sel_init) h) - total (fun i => Z.min (A i) (B i))) <= 912.
Proof. exact (@gain_uni_error h A B p). Qed.
Print Assumptions C94_uni_error.
Theorem C94_uni_equal h A B p m : rows_ok h -> (p * 256 + 256 < length h)%nat -> holds h A B (p * 256) 256 ->
  0 <= m <= 256 -> (forall i, (i < 16)%nat -> Z.min (A i) (B i) = m) ->
  ones_from (S (p * 256)) 256 (outs gainmac_uni_scaled (gainmac_init mux_sel_init) h) = m.
Proof. exact (@gain_uni_equal h A B p m). Qed.
Print Assumptions C94_uni_equal.

(** The bound is attained on both sides, in every period but the first. *)
Definition high_lanes : list Z := [143; 159; 175; 191; 207; 223; 239; 255; 15; 31; 47; 63; 79; 95; 111; 127].
Definition low_lanes : list Z := [129; 145; 161; 177; 193; 209; 225; 241; 1; 17; 33; 49; 65; 81; 97; 113].
Definition of_list (l : list Z) (i : nat) : Z := nth i l 0.
Theorem C94_error_attained p : (1 <= p)%nat -> exists h1 h2,
  rows_ok h1 /\ holds h1 (of_list high_lanes) (of_list high_lanes) (p * 256) 256 /\
  16 * ones_from (S (p * 256)) 256 (outs gainmac_uni_scaled (gainmac_init mux_sel_init) h1) - total (of_list high_lanes) = 912 /\
  rows_ok h2 /\ holds h2 (of_list low_lanes) (of_list low_lanes) (p * 256) 256 /\
  16 * ones_from (S (p * 256)) 256 (outs gainmac_uni_scaled (gainmac_init mux_sel_init) h2) - total (of_list low_lanes) = -912.
Proof.
  intros Hp. set (N := (p * 256 + 257)%nat).
  set (h1 := repeat (mac_row (of_list high_lanes) (of_list high_lanes)) N).
  set (h2 := repeat (mac_row (of_list low_lanes) (of_list low_lanes)) N). exists h1, h2.
  assert (H1 : holds h1 (of_list high_lanes) (of_list high_lanes) (p * 256) 256) by (apply holds_const; unfold N; lia).
  assert (H2 : holds h2 (of_list low_lanes) (of_list low_lanes) (p * 256) 256) by (apply holds_const; unfold N; lia).
  assert (L1 : (p * 256 + 256 < length h1)%nat) by (unfold h1; rewrite repeat_length; unfold N; lia).
  assert (L2 : (p * 256 + 256 < length h2)%nat) by (unfold h2; rewrite repeat_length; unfold N; lia).
  assert (R1 : rows_ok h1) by apply rows_const. assert (R2 : rows_ok h2) by apply rows_const.
  rewrite (gain_uni_count h1 _ _ p R1 L1 H1), (gain_uni_count h2 _ _ p R2 L2 H2).
  repeat split; try assumption; try apply H1; try apply H2; try assumption; vm_compute; reflexivity.
Qed.
Print Assumptions C94_error_attained.
(** The units are documented as multiply-accumulate units: they compute no products. Halves in all lanes give a half (the products are
    quarters), and a single sixteenth in lane 0 gives 8 ones of 256, where the sixteenth of a sixteenth is one. *)
Definition all_lanes (a : Z) (i : nat) : Z := a.
Definition lane_0 (a : Z) (i : nat) : Z := match i with O => a | S _ => 0 end.
Theorem C94_product_refuted p : (1 <= p)%nat -> exists h1 h2,
  rows_ok h1 /\ holds h1 (all_lanes 128) (all_lanes 128) (p * 256) 256 /\
  ones_from (S (p * 256)) 256 (outs gainmac_uni_scaled (gainmac_init mux_sel_init) h1) = 128 /\
  rows_ok h2 /\ holds h2 (lane_0 16) (lane_0 256) (p * 256) 256 /\
  ones_from (S (p * 256)) 256 (outs gainmac_uni_scaled (gainmac_init mux_sel_init) h2) = 8 /\
  ones_from (S (p * 256)) 256 (outs gainmac_uni_nonscaled (gainmac_init 0) h1) = 128.
Proof.
  intros Hp. set (N := (p * 256 + 257)%nat).
  set (h1 := repeat (mac_row (all_lanes 128) (all_lanes 128)) N).
  set (h2 := repeat (mac_row (lane_0 16) (lane_0 256)) N). exists h1, h2.
  assert (H1 : holds h1 (all_lanes 128) (all_lanes 128) (p * 256) 256) by (apply holds_const; unfold N; lia).
  assert (H2 : holds h2 (lane_0 16) (lane_0 256) (p * 256) 256) by (apply holds_const; unfold N; lia).
  assert (L1 : (p * 256 + 256 < length h1)%nat) by (unfold h1; rewrite repeat_length; unfold N; lia).
  assert (L2 : (p * 256 + 256 < length h2)%nat) by (unfold h2; rewrite repeat_length; unfold N; lia).
  assert (R1 : rows_ok h1) by apply rows_const. assert (R2 : rows_ok h2) by apply rows_const.
  rewrite (gain_uni_count h1 _ _ p R1 L1 H1), (gain_uni_count h2 _ _ p R2 L2 H2).
  rewrite (gain_or_count h1 _ _ p R1 L1 H1) by (unfold all_lanes; lia).
  repeat split; try assumption; try apply H1; try apply H2; try assumption; vm_compute; reflexivity.
Qed.
Print Assumptions C94_product_refuted.
Example C94_example : let h := repeat (mac_row (of_list high_lanes) (all_lanes 200)) 20 in
  map (fun v => (v, lane_of v)) (map (free_run 8) (seq 0 6)) = [(0, 0); (128, 8); (192, 12); (64, 4); (96, 6); (224, 14)] /\
  rows_ok h /\ held_a h 3 4 = 207 /\ held_b h 3 4 = 200 /\
  firstn 9 (outs gainmac_uni_scaled (gainmac_init mux_sel_init) h) = [0; 0; 0; 0; 1; 1; 0; 0; 1] /\
  firstn 9 (outs gainmac_bi_scaled (gainmac_init mux_sel_init) h) = [0; 1; 0; 0; 1; 1; 1; 0; 1] /\
  firstn 9 (outs gainmac_uni_nonscaled (gainmac_init 0) h) = [0; 0; 1; 1; 1; 1; 0; 1; 1].
Proof. vm_compute. repeat split; repeat constructor. Qed.

(** ** C95: dMAC *)

(** Every output bit of the three units, for any operands loaded at any time. The number that is compared with iB, and the lane that is
    selected, advance only while the upper counter is at its last value: see [slow]. *)
Theorem C95_uni h t : rows_ok h -> (S t < length h)%nat ->
  let i := Z.to_nat (free_run 4 (slow 8 t)) in
  nth (S t) (outs dmac_uni_scaled dmac_init h) 0 = b2z ((free_run 8 t <? held_a h t i) && (free_run 8 (slow 8 t) <? held_b h t i)).
Proof. exact (@dmac_uni_nth h t). Qed.
Print Assumptions C95_uni.
Theorem C95_bi h t : rows_ok h -> (S t < length h)%nat ->
  let i := Z.to_nat (free_run 4 (slow 8 t)) in
  nth (S t) (outs dmac_bi_scaled dmac_init h) 0 = b2z (Bool.eqb (free_run 8 t <? held_a h t i) (free_run 8 (slow 8 t) <? held_b h t i)).
Proof. exact (@dmac_bi_nth h t). Qed.
Print Assumptions C95_bi.
Theorem C95_or w h t : (1 <= w)%nat -> rows_ok h -> (S t < length h)%nat ->
  nth (S t) (outs (dmac_uni_nonscaled w) dmac_or_init h) 0 =
  b2z (free_run w t <? largest (fun i => if free_run w (slow w t) <? held_b h t i then held_a h t i else 0)).
Proof. exact (@dmac_or_nth w h t). Qed.
Print Assumptions C95_or.

(** The ones of one period in which the operands stay the same, for all periods but every 256th: only lane 0 counts, its iA is counted in
    full and its iB only decides whether: above 0 in the even blocks of 256 periods, above 129 in the odd ones. *)
Theorem C95_uni_count h A B p : rows_ok h -> (p * 256 + 256 < length h)%nat -> holds h A B (p * 256) 256 -> (p mod 256 < 255)%nat ->
  0 <= A 0%nat <= 256 ->
  ones_from (S (p * 256)) 256 (outs dmac_uni_scaled dmac_init h) =
  if (if Nat.even (p / 256) then 0 else 129) <? B 0%nat then A 0%nat else 0.
Proof. exact (@dmac_uni_count h A B p). Qed.
Print Assumptions C95_uni_count.
Theorem C95_bi_count h A B p : rows_ok h -> (p * 256 + 256 < length h)%nat -> holds h A B (p * 256) 256 -> (p mod 256 < 255)%nat ->
  0 <= A 0%nat <= 256 ->
  ones_from (S (p * 256)) 256 (outs dmac_bi_scaled dmac_init h) =
  if (if Nat.even (p / 256) then 0 else 129) <? B 0%nat then A 0%nat else 256 - A 0%nat.
Proof. exact (@dmac_bi_count h A B p). Qed.
Print Assumptions C95_bi_count.
Theorem C95_or_count h A B p : rows_ok h -> (p * 256 + 256 < length h)%nat -> holds h A B (p * 256) 256 -> (p mod 256 < 255)%nat ->
  (forall i, (i < 16)%nat -> 0 <= A i <= 256) ->
  ones_from (S (p * 256)) 256 (outs (dmac_uni_nonscaled 8) dmac_or_init h) =
  largest (fun i => if (if Nat.even (p / 256) then 0 else 129) <? B i then A i else 0).
Proof. exact (@dmac_or_count h A B p). Qed.
Print Assumptions C95_or_count.

(** So the unit is not a multiply-accumulate unit for most of the time: whatever the other fifteen lanes hold and whatever the second
    operand is (here: any value of iB from 1 to 255), the count is the first operand of lane 0. *)
Theorem C95_product_refuted p a b A B : (1 <= p < 255)%nat -> 0 <= a <= 255 -> 1 <= b <= 255 -> A 0%nat = a -> B 0%nat = b -> exists h,
  rows_ok h /\ holds h A B (p * 256) 256 /\ ones_from (S (p * 256)) 256 (outs dmac_uni_scaled dmac_init h) = a.
Proof.
  intros Hp Ha Hb HA HB. exists (repeat (mac_row A B) (p * 256 + 257)).
  assert (H1 : holds (repeat (mac_row A B) (p * 256 + 257)) A B (p * 256) 256) by (apply holds_const; lia).
  split; [apply rows_const|]. split; [exact H1|].
  rewrite (dmac_uni_count _ A B p (rows_const _ _ _)); [|rewrite repeat_length; lia|exact H1|rewrite Nat.mod_small; lia|lia].
  rewrite (Nat.div_small p 256) by lia. cbn [Nat.even]. rewrite HA, HB. destruct (Z.ltb_spec 0 b); lia.
Qed.
Print Assumptions C95_product_refuted.
(** The same with the two-bit counters, where a whole round fits: 4 steps of the second generator in 16 clocks, all in the last four. *)
Example C95_slow : map (slow 2) (seq 0 20) = [0; 0; 0; 0; 0; 0; 0; 0; 0; 0; 0; 0; 0; 1; 2; 3; 4; 4; 4; 4]%nat.
Proof. reflexivity. Qed.
Example C95_example : let h := repeat (mac_row (of_list high_lanes) (all_lanes 1)) 20 in
  rows_ok h /\ firstn 9 (outs dmac_uni_scaled dmac_init h) = [0; 0; 1; 0; 1; 1; 0; 0; 1] /\
  firstn 9 (outs dmac_bi_scaled dmac_init h) = [0; 1; 1; 0; 1; 1; 0; 0; 1] /\
  firstn 9 (outs (dmac_uni_nonscaled 8) dmac_or_init h) = [0; 0; 1; 1; 1; 1; 1; 1; 1].
Proof. vm_compute. repeat split; repeat constructor. Qed.

(** ** C96: uMAC *)

(** uMAC_bi_scaled, the weights loaded: bit for bit the bipolar FSULinear with sixteen inputs, one output, no bias and the default scale, as
    long as no input has more than 2^w ones or more than 2^w zeros. *)
Theorem C96_bi_scaled ext w depth Bs h : (1 <= w <= 30)%nat -> torch_dim1 ext -> 7 <= depth -> length Bs = 16%nat -> mac_bits (map (map fst) h) ->
  (forall i, (i < 16)%nat -> ones (map (fun r => nth i r 0) (map (map fst) h)) <= p2 w /\ zeros (map (fun r => nth i r 0) (map (map fst) h)) <= p2 w) ->
  let c := layer16_cfg Bipolar (rng_seq ext KSobol w 1) Bs in
  exists os, outputs (run_r (flin_step c (flin_acc_cfg c None depth)) (flin_init c) (no_args (map (fun r => [map fst r]) h))) = Some os /\
  outs (umac_bi_scaled w) (map (fun B => (B, (sobol_rtl_init, sobol_rtl_init))) Bs, usadd_init) (map (map (fun p => (fst p, snd p, 0))) h) = lane os 0 0.
Proof. exact (@umac_bi_scaled_equiv ext w depth Bs h). Qed.
Print Assumptions C96_bi_scaled.
(** uMAC_uni_nonscaled: the unipolar FSULinear with scale 1, one clock later, up to the 511th product bit that is one. *)
Theorem C96_uni_nonscaled ext w depth Bs h : (1 <= w <= 30)%nat -> torch_dim1 ext -> 11 <= depth -> length Bs = 16%nat -> mac_bits (map (map fst) h) ->
  (forall i, (i < 16)%nat -> ones (map (fun r => nth i r 0) (map (map fst) h)) <= p2 w) ->
  total_ones (mac_prods Unipolar (rng_seq ext KSobol w 1) Bs (map (map fst) h)) <= 511 ->
  let c := layer16_cfg Unipolar (rng_seq ext KSobol w 1) Bs in
  exists os, outputs (run_r (flin_step c (flin_acc_cfg c (Some 1%Q) depth)) (flin_init c) (no_args (map (fun r => [map fst r]) h))) = Some os /\
  outs (umac_uni_nonscaled w) (map (fun B => (B, sobol_rtl_init)) Bs, unsadd_init) (map (map (fun p => (fst p, snd p, 0))) h) = delayed 0 (lane os 0 0).
Proof. exact (@umac_uni_nonscaled_equiv ext w depth Bs h). Qed.
Print Assumptions C96_uni_nonscaled.
(** uMAC_bi_nonscaled: while the surplus of the products stays in the range of the register, at most one more one than the bipolar FSULinear
    with scale 1 has emitted one clock earlier. *)
Theorem C96_bi_nonscaled ext w depth Bs h z : (1 <= w <= 30)%nat -> torch_dim1 ext -> 11 <= depth -> length Bs = 16%nat ->
  mac_bits (map (map fst) (h ++ [z])) ->
  (forall i, (i < 16)%nat -> ones (map (fun r => nth i r 0) (map (map fst) (h ++ [z]))) <= p2 w /\ zeros (map (fun r => nth i r 0) (map (map fst) (h ++ [z]))) <= p2 w) ->
  (forall p, (p <= length h)%nat -> 0 <= 2 * total_ones (firstn p (mac_prods Bipolar (rng_seq ext KSobol w 1) Bs (map (map fst) h))) - 15 * Z.of_nat p <= 1022) ->
  let c := layer16_cfg Bipolar (rng_seq ext KSobol w 1) Bs in
  exists os, outputs (run_r (flin_step c (flin_acc_cfg c (Some 1%Q) depth)) (flin_init c) (no_args (map (fun r => [map fst r]) h))) = Some os /\
  0 <= ones (outs (umac_bi_nonscaled w) (map (fun B => (B, (sobol_rtl_init, sobol_rtl_init))) Bs, unsadd_init) (map (map (fun p => (fst p, snd p, 0))) (h ++ [z])))
     - ones (lane os 0 0) <= 1.
Proof. exact (@umac_bi_nonscaled_equiv ext w depth Bs h z). Qed.
Print Assumptions C96_bi_nonscaled.

(** From reset, with the load on the first clock: the adder gets the products of FSUMul on every clock but the first. The generators do
    advance during the load (the bipolar unit cannot avoid it), and the bipolar adder counts a one for every zero input. *)
Theorem C96_uni_load ext w x0 Bs h : (1 <= w <= 30)%nat -> torch_dim1 ext -> length Bs = 16%nat -> mac_bits (x0 :: map (map fst) h) ->
  (forall i, (i < 16)%nat -> ones (map (fun r => nth i r 0) (x0 :: map (map fst) h)) <= p2 w) ->
  outs (mac_lanes (umul_uni w)) (repeat umul_uni_init 16) (map2 (fun x B => (x, B, 1)) x0 Bs :: map (map (fun p => (fst p, snd p, 0))) h) =
  repeat 0 16 :: tl (mac_prods Unipolar (rng_seq ext KSobol w 1) Bs (x0 :: map (map fst) h)).
Proof. exact (@umac_load_uni ext w x0 Bs h). Qed.
Print Assumptions C96_uni_load.
Theorem C96_bi_load ext w x0 Bs h : (1 <= w <= 30)%nat -> torch_dim1 ext -> length Bs = 16%nat -> mac_bits (x0 :: map (map fst) h) ->
  (forall i, (i < 16)%nat -> ones (map (fun r => nth i r 0) (x0 :: map (map fst) h)) <= p2 w /\ zeros (map (fun r => nth i r 0) (x0 :: map (map fst) h)) <= p2 w) ->
  outs (mac_lanes (umul_bi w)) (repeat umul_bi_init 16) (map2 (fun x B => (x, B, 1)) x0 Bs :: map (map (fun p => (fst p, snd p, 0))) h) =
  map (fun x => 1 - x) x0 :: tl (mac_prods Bipolar (rng_seq ext KSobol w 1) Bs (x0 :: map (map fst) h)).
Proof. exact (@umac_load_bi ext w x0 Bs h). Qed.
Print Assumptions C96_bi_load.

(** Beyond the ranges both wrap. Unipolar: full weights and inputs of ones, the layer says 1 for ever, the unit falls to 0 on clock 33.
    Bipolar: weights of -1 and inputs of ones, the layer says -1, the unit says 1. *)
Definition ones_rows (n : nat) : list (list (Z * Z)) := repeat (repeat (1, 0) 16) n.
Theorem C96_wrap_refuted ext : torch_dim1 ext ->
  (let c := layer16_cfg Unipolar (rng_seq ext KSobol 8 1) (repeat 255 16) in exists os,
   outputs (run_r (flin_step c (flin_acc_cfg c (Some 1%Q) 12)) (flin_init c) (no_args (map (fun r => [map fst r]) (ones_rows 33)))) = Some os /\
   lane os 0 0 = repeat 1 33 /\
   nth 32 (outs (umac_uni_nonscaled 8) (map (fun B => (B, sobol_rtl_init)) (repeat 255 16), unsadd_init)
     (map (map (fun p => (fst p, snd p, 0))) (ones_rows 33))) 0 = 0) /\
  (let c := layer16_cfg Bipolar (rng_seq ext KSobol 8 1) (repeat 0 16) in exists os,
   outputs (run_r (flin_step c (flin_acc_cfg c (Some 1%Q) 12)) (flin_init c) (no_args (map (fun r => [map fst r]) (ones_rows 61)))) = Some os /\
   lane os 0 0 = repeat 0 61 /\
   outs (umac_bi_nonscaled 8) (map (fun B => (B, (sobol_rtl_init, sobol_rtl_init))) (repeat 0 16), unsadd_init)
     (map (map (fun p => (fst p, snd p, 0))) (ones_rows 61)) = 0 :: repeat 1 60).
Proof.
  intros He.
  assert (Hr : (0 < length (rng_seq ext KSobol 8 1))%nat) by (rewrite torch_seq_length by lia; cbn; lia).
  assert (Hm : forall n, mac_bits (map (map fst) (ones_rows n))).
  { intros n. unfold mac_bits. rewrite Forall_map. apply Forall_forall. intros r Hi. apply repeat_spec in Hi. subst r. split; [reflexivity|]. unfold bits, bit. apply Forall_forall. intros x Hx. cbn in Hx. lia. }
  split; intros c.
  - destruct (layer16 Unipolar (rng_seq ext KSobol 8 1) (repeat 255 16) (Some 1%Q) 12 (map (map fst) (ones_rows 33)) Hr eq_refl (Hm 33%nat)) as (os & E1 & E2).
    rewrite map_map in E1. exists os. split; [exact E1|]. split; [rewrite E2|vm_compute; reflexivity].
    rewrite <- (umac_cols_uni ext 8 (repeat 255 16) (ones_rows 33) ltac:(lia) He eq_refl (Hm 33%nat)).
    + vm_compute. reflexivity.
    + intros i Hi. do 16 (destruct i as [|i]; [vm_compute; discriminate|]). lia.
  - destruct (layer16 Bipolar (rng_seq ext KSobol 8 1) (repeat 0 16) (Some 1%Q) 12 (map (map fst) (ones_rows 61)) Hr eq_refl (Hm 61%nat)) as (os & E1 & E2).
    rewrite map_map in E1. exists os. split; [exact E1|]. split; [rewrite E2|vm_compute; reflexivity].
    rewrite <- (umac_cols_bi ext 8 (repeat 0 16) (ones_rows 61) ltac:(lia) He eq_refl (Hm 61%nat)).
    + vm_compute. reflexivity.
    + intros i Hi. do 16 (destruct i as [|i]; [vm_compute; split; discriminate|]). lia.
Qed.
Print Assumptions C96_wrap_refuted.
Example C96_example : let h := map (fun b => repeat (b, 7) 16) [1; 0; 1; 1; 1] in
  mac_bits (map (map fst) h) /\
  outs (umac_bi_scaled 2) (map (fun B => (B, (sobol_rtl_init, sobol_rtl_init))) (repeat 3 16), usadd_init) (map (map (fun p => (fst p, snd p, 0))) h) = [1; 0; 1; 0; 1] /\
  outs (umac_uni_nonscaled 2) (map (fun B => (B, sobol_rtl_init)) (3 :: repeat 0 15), unsadd_init) (map (map (fun p => (fst p, snd p, 0))) h) = [0; 1; 0; 1; 0] /\
  outs (mac_lanes (umul_bi 2)) (repeat umul_bi_init 16) [map2 (fun x B => (x, B, 1)) (repeat 0 16) (repeat 3 16); repeat (0, 0, 0) 16] = [repeat 1 16; repeat 0 16].
Proof.
  split; [|vm_compute; repeat split]. apply Forall_forall. intros r Hr. cbn in Hr.
  repeat (destruct Hr as [<-|Hr]; [split; [reflexivity|]; apply Forall_forall; intros x Hx; unfold bit; cbn in Hx; lia|]). contradiction.
Qed.
