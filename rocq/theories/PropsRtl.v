(** Properties C54, C59, C60: SystemVerilog modules under /repo/hw against the Python modules. *)
Require Import Verif.BaseLemmas Verif.GenModel Verif.ShuffleModel Verif.AddModel Verif.KernelModel Verif.DivModel
  Verif.LinearModel Verif.RtlModel Verif.LinearProof Verif.RtlProof Verif.RtlRngProof.
Open Scope Z_scope.

(** C54. Same outputs on every history of bits: SkewedSync; Sign and the sign output of Abs, one clock later; JKFF, one clock later;
    BISQRT_S_JK_U; Uni2Bi, one clock later. *)
Theorem C54_skewedsync : forall dep h, Forall bitpair h ->
  outs (skewedsync_rtl dep) skewedsync_rtl_init h = outs (skewedsync_step dep) skewedsync_init h.
Proof. exact skewedsync_equiv. Qed.
Print Assumptions C54_skewedsync.
Theorem C54_sign : forall d xs, bits xs ->
  outs (sign_rtl d) (abs_rtl_init d) xs = delayed 0 (map fst (outs (fsusignabs_step d) (fsusignabs_init d) xs)).
Proof. exact sign_equiv. Qed.
Print Assumptions C54_sign.
Theorem C54_abs : forall d xs, bits xs ->
  outs (abs_rtl d) (abs_rtl_init d) xs =
  map2 (fun s x => (s, Z.lxor x s)) (delayed 0 (map fst (outs (fsusignabs_step d) (fsusignabs_init d) xs))) xs.
Proof. exact abs_equiv. Qed.
Print Assumptions C54_abs.
(** The absolute value outputs differ exactly as often as the Python sign changes from one cycle to the next. *)
Theorem C54_abs_differences : forall d xs, bits xs ->
  let signs := map fst (outs (fsusignabs_step d) (fsusignabs_init d) xs) in
  differences (map snd (outs (abs_rtl d) (abs_rtl_init d) xs)) (map snd (outs (fsusignabs_step d) (fsusignabs_init d) xs)) =
  differences (delayed 0 signs) signs.
Proof. exact abs_differences. Qed.
Print Assumptions C54_abs_differences.
Theorem C54_jkff : forall h, Forall bitpair h -> outs jkff_rtl jkff_rtl_init h = delayed 0 (outs jkff_step jkff_init h).
Proof. exact jkff_equiv. Qed.
Print Assumptions C54_jkff.
Theorem C54_bisqrt_unipolar : forall rng xs, bits xs ->
  outputs (run_r (sqrt_trace_step Unipolar true rng) sqrt_trace_init xs) = Some (outs bisqrt_jk_u jkff_rtl_init xs).
Proof. exact bisqrt_u_equiv. Qed.
Print Assumptions C54_bisqrt_unipolar.
Theorem C54_uni2bi : forall d2 xs, (2 <= d2)%nat -> bits xs ->
  outs uni2bi_rtl uni2bi_rtl_init xs = delayed 0 (outs (uni2bi_step d2) uni2bi_init xs).
Proof. exact uni2bi_equiv. Qed.
Print Assumptions C54_uni2bi.
(** Bi2Uni: one clock later, as long as no window of the input has 2^(d2) more zeros than ones. *)
Theorem C54_bi2uni : forall d2 xs, bits xs ->
  (forall i j, - p2 d2 <= walk (firstn j (skipn i xs))) ->
  outs (bi2uni_rtl (S d2)) (bi2uni_rtl_init (S d2)) xs = delayed 0 (outs (bi2uni_step d2) bi2uni_init xs).
Proof. exact bi2uni_equiv. Qed.
Print Assumptions C54_bi2uni.
Example C54_ex :
  outs (skewedsync_rtl 2) skewedsync_rtl_init [(1,0);(0,1);(1,0);(1,0)] = [(0,0);(1,1);(0,0);(0,0)] /\
  outs (abs_rtl 1) (abs_rtl_init 1) [0;0;1;1;1] = [(0,0);(1,1);(1,0);(1,0);(0,1)] /\
  outs jkff_rtl jkff_rtl_init [(1,0);(1,1);(1,1);(0,0)] = [0;1;0;1] /\
  outs bisqrt_jk_u jkff_rtl_init [1;0;0;1;0] = [1;1;0;1;1] /\
  outs uni2bi_rtl uni2bi_rtl_init [1;0;0;1] = [0;1;0;1] /\
  outs (bi2uni_rtl 2) (bi2uni_rtl_init 2) [1;1;0;1;1] = [0;1;1;0;0].
Proof. repeat split; vm_compute; reflexivity. Qed.

(** The absolute value streams are not equal. *)
Theorem C54_abs_stream_refuted : exists d xs, bits xs /\
  map snd (outs (abs_rtl d) (abs_rtl_init d) xs) <> map snd (outs (fsusignabs_step d) (fsusignabs_init d) xs).
Proof. exists 1%nat, [0;0;1]. split; [repeat constructor; unfold bit; lia|vm_compute; discriminate]. Qed.
Print Assumptions C54_abs_stream_refuted.

(** The Bi2Uni register wraps: for every width there is a stream of zeros on which the RTL emits a one; the Python emits none. *)
Theorem C54_bi2uni_wrap_refuted : forall d2, exists xs, bits xs /\ ones xs = 0 /\
  ones (outs (bi2uni_step d2) bi2uni_init xs) = 0 /\ 0 < ones (outs (bi2uni_rtl (S d2)) (bi2uni_rtl_init (S d2)) xs).
Proof. exact b2u_wrap_witness. Qed.
Print Assumptions C54_bi2uni_wrap_refuted.

(** CORDIV_kernel.sv: the register holds the last quotients of all clocks (the Python holds the last quotients at divisor ones, C23);
    ISCBDIV_U.sv is that kernel behind the Python synchroniser. *)
Theorem C54_cordiv_register : forall dep h, (0 < dep)%nat ->
  final cordiv_rtl (cordiv_rtl_init dep) h = recent dep (outs cordiv_rtl (cordiv_rtl_init dep) h).
Proof. exact cordiv_rtl_state. Qed.
Print Assumptions C54_cordiv_register.
Theorem C54_cordiv_outputs : forall dep h t, (0 < dep)%nat -> (t < length h)%nat ->
  let qs := outs cordiv_rtl (cordiv_rtl_init dep) h in
  nth t qs 0 = let '(r, a, b) := nth t h (0, 0, 0) in
               if b =? 1 then a else nth (Z.to_nat r) (recent dep (firstn t qs)) 0.
Proof. exact cordiv_rtl_outs. Qed.
Print Assumptions C54_cordiv_outputs.
Theorem C54_iscbdiv : forall dep_sync rs h, Forall bitpair h -> length rs = length h -> forall cnt sr, 0 <= cnt < p2 dep_sync ->
  outs (iscbdiv_u dep_sync) (cnt, sr) (map2 (fun r p => (r, fst p, snd p)) rs h) =
  outs cordiv_rtl sr (map2 (fun r p => (r, fst p, snd p)) rs (outs (skewedsync_step dep_sync) cnt h)).
Proof. exact iscbdiv_split. Qed.
Print Assumptions C54_iscbdiv.
Example C54_cordiv_ex : outs cordiv_rtl (cordiv_rtl_init 2) [(0,1,1);(1,0,0);(0,0,1);(0,1,0)] = [1;1;0;1] /\
  final cordiv_rtl (cordiv_rtl_init 2) [(0,1,1);(1,0,0);(0,0,1);(0,1,0)] = [0;1] /\
  outs (iscbdiv_u 2) (iscbdiv_u_init 2) [(0,1,0);(1,0,1);(0,1,1)] = [0;1;1].
Proof. repeat split; vm_compute; reflexivity. Qed.
(** With the same random positions, the two kernels (and the two unipolar dividers) disagree. *)
Theorem C54_cordiv_stream_refuted : exists dep rng h os, Forall bitpair h /\
  outputs (run_r (cordiv_step dep rng) (cordiv_init dep) h) = Some os /\
  outs cordiv_rtl (cordiv_rtl_init dep) (map2 (fun r p => (r, fst p, snd p)) rng h) <> os.
Proof.
  exists 2%nat, [0; 1], [(1, 0); (1, 0)], [0; 1].
  split; [repeat constructor; unfold bit; cbn; lia|]. split; [reflexivity|vm_compute; discriminate].
Qed.
Print Assumptions C54_cordiv_stream_refuted.
Theorem C54_iscbdiv_stream_refuted : exists c h os, fd_mode c = Unipolar /\ Forall bitpair h /\
  outputs (run_r (fsudiv_step c) (fsudiv_init c) h) = Some os /\
  outs (iscbdiv_u (fd_depth_ss c)) (iscbdiv_u_init (fd_entry c)) (map2 (fun r p => (r, fst p, snd p)) (fd_rng c) h) <> os.
Proof.
  exists {| fd_mode := Unipolar; fd_depth_sa := 1; fd_depth_ss := 2; fd_entry := 2; fd_rng := [0; 1] |}, [(0, 0); (0, 0)], [0; 1].
  split; [reflexivity|]. split; [repeat constructor; unfold bit; cbn; lia|]. split; [reflexivity|vm_compute; discriminate].
Qed.
Print Assumptions C54_iscbdiv_stream_refuted.
(** BISQRT_S_JK_B feeds its Bi2Uni with the input, the Python with the output. *)
Theorem C54_bisqrt_bipolar_refuted : exists rng xs os, bits xs /\
  outputs (run_r (sqrt_trace_step Bipolar true rng) sqrt_trace_init xs) = Some os /\
  outs (bisqrt_jk_b 2) (bisqrt_jk_b_init 2) xs <> os.
Proof.
  exists [], [1; 0; 0; 0; 0], [1; 1; 0; 0; 0]. split; [repeat constructor; unfold bit; lia|].
  split; [vm_compute; reflexivity|vm_compute; discriminate].
Qed.
Print Assumptions C54_bisqrt_bipolar_refuted.

(** What it does emit: the flip-flop toggles on a one of the converted input and resets on a zero; a set flip-flop forces a one. *)
Theorem C54_bisqrt_bipolar : forall d xs, bits xs -> forall t, (t < length xs)%nat ->
  nth t (outs (bisqrt_jk_b d) (bisqrt_jk_b_init d) xs) 0 =
  (if fold_left (fun j u => if u =? 1 then 1 - j else 0) (firstn t (outs (bi2uni_rtl d) (bi2uni_rtl_init d) xs)) 0 =? 1
   then 1 else nth t xs 0).
Proof. exact bisqrt_b_outs. Qed.
Print Assumptions C54_bisqrt_bipolar.
Example C54_bisqrt_bipolar_ex : outs (bisqrt_jk_b 2) (bisqrt_jk_b_init 2) [1; 1; 0; 1; 1; 0] = [1; 1; 1; 1; 1; 0] /\
  outs (bi2uni_rtl 2) (bi2uni_rtl_init 2) [1; 1; 0; 1; 1; 0] = [0; 1; 1; 0; 0; 1].
Proof. split; vm_compute; reflexivity. Qed.

(** C59. The RTL Sobol generator. Its value on a clock depends only on the number k of enabled clocks before: in the first period of
    2^w it is torch's first Sobol dimension at k, in every second period the same exclusive-or'ed with 1 xor 2^(w-1). *)
Theorem C59_values : forall ext w es t, (1 <= w <= 30)%nat -> torch_dim1 ext -> bits es -> (t < length es)%nat ->
  let k := Z.to_nat (ones (firstn t es)) in
  nth t (outs (sobol_rtl w) sobol_rtl_init es) 0 =
  Z.lxor (cyc (rng_seq ext KSobol w 1) k) (if Nat.odd (k / 2 ^ w) then Z.lxor 1 (p2 (w - 1)) else 0).
Proof. exact sobol_rtl_values. Qed.
Print Assumptions C59_values.
(** Every period lists every value once. *)
Theorem C59_period : forall w p, (1 <= w)%nat ->
  Permutation (skipn (p * 2 ^ w) (outs (sobol_rtl w) sobol_rtl_init (repeat 1 (p * 2 ^ w + 2 ^ w)))) (zrange (2 ^ w)).
Proof. exact sobol_rtl_period. Qed.
Print Assumptions C59_period.
Definition torch_ext : rng_ext := {| ext_dirvec := fun _ j => p2 (29 - j); ext_lfsr_next := fun s => s; ext_lfsr_init := []; ext_randperm := [] |}.
Example C59_ex : torch_dim1 torch_ext /\
  outs (sobol_rtl 2) sobol_rtl_init [1;1;0;1;1;1;1;1;1;1] = [0;2;3;3;1;3;1;0;2;0] /\ rng_seq torch_ext KSobol 2 1 = [0;2;3;1].
Proof. split; [intros j Hj; reflexivity|]. split; vm_compute; reflexivity. Qed.

(** C60. uMUL_uni and uMUL_bi against FSUMul(static=True) with torch's first Sobol dimension: after the operand has been loaded,
    equal for streams that enable each generator at most 2^w times. *)
Theorem C60_mul_unipolar : forall ext w B xs, (1 <= w <= 30)%nat -> torch_dim1 ext -> bits (map fst xs) -> ones (map fst xs) <= p2 w ->
  outs (umul_uni w) (B, sobol_rtl_init) (map (fun p => (fst p, snd p, 0)) xs) =
  outs (fsumul_static_step Unipolar B (rng_seq ext KSobol w 1)) fsumul_static_init (map fst xs).
Proof. exact umul_uni_equiv. Qed.
Print Assumptions C60_mul_unipolar.
Theorem C60_mul_bipolar : forall ext w B xs, (1 <= w <= 30)%nat -> torch_dim1 ext -> bits (map fst xs) ->
  ones (map fst xs) <= p2 w -> zeros (map fst xs) <= p2 w ->
  outs (umul_bi w) (B, (sobol_rtl_init, sobol_rtl_init)) (map (fun p => (fst p, snd p, 0)) xs) =
  outs (fsumul_static_step Bipolar B (rng_seq ext KSobol w 1)) fsumul_static_init (map fst xs).
Proof. exact umul_bi_equiv. Qed.
Print Assumptions C60_mul_bipolar.
(** From reset, loading the operand on the first clock: all outputs but the first. *)
Theorem C60_mul_unipolar_load : forall ext w B x0 xs, (1 <= w <= 30)%nat -> torch_dim1 ext -> bits (x0 :: map fst xs) ->
  ones (x0 :: map fst xs) <= p2 w ->
  outs (umul_uni w) umul_uni_init ((x0, B, 1) :: map (fun p => (fst p, snd p, 0)) xs) =
  0 :: tl (outs (fsumul_static_step Unipolar B (rng_seq ext KSobol w 1)) fsumul_static_init (x0 :: map fst xs)).
Proof. exact umul_uni_load. Qed.
Print Assumptions C60_mul_unipolar_load.
Theorem C60_mul_bipolar_load : forall ext w B x0 xs, (1 <= w <= 30)%nat -> torch_dim1 ext -> bits (x0 :: map fst xs) ->
  ones (x0 :: map fst xs) <= p2 w -> zeros (x0 :: map fst xs) <= p2 w ->
  outs (umul_bi w) umul_bi_init ((x0, B, 1) :: map (fun p => (fst p, snd p, 0)) xs) =
  (1 - x0) :: tl (outs (fsumul_static_step Bipolar B (rng_seq ext KSobol w 1)) fsumul_static_init (x0 :: map fst xs)).
Proof. exact umul_bi_load. Qed.
Print Assumptions C60_mul_bipolar_load.
Example C60_mul_ex : 
  outs (umul_uni 2) umul_uni_init ((1, 3, 1) :: map (fun x => (x, 0, 0)) [1;0;1;1]) = [0;1;0;0;1] /\
  outs (umul_bi 2) umul_bi_init ((0, 3, 1) :: map (fun x => (x, 0, 0)) [1;0;1;1]) = [1;1;0;1;0] /\
  outs (fsumul_static_step Bipolar 3 (rng_seq torch_ext KSobol 2 1)) fsumul_static_init [0;1;0;1;1] = [0;1;0;1;0].
Proof. repeat split; vm_compute; reflexivity. Qed.
(** Longer streams: different bits. *)
Theorem C60_mul_long_refuted : exists ext w B xs, torch_dim1 ext /\ (1 <= w <= 30)%nat /\ 0 <= B <= p2 w /\ bits xs /\
  outs (umul_uni w) (B, sobol_rtl_init) (map (fun x => (x, 0, 0)) xs) <>
  outs (fsumul_static_step Unipolar B (rng_seq ext KSobol w 1)) fsumul_static_init xs.
Proof.
  exists torch_ext, 2%nat, 1, (repeat 1 5). split; [intros j Hj; reflexivity|]. split; [lia|]. split; [vm_compute; split; discriminate|].
  split; [repeat constructor; unfold bit; lia|vm_compute; discriminate].
Qed.
Print Assumptions C60_mul_long_refuted.
(** uSADD8 and uSADD16 against the scaled unipolar FSUAdd: equal on every history. *)
Theorem C60_usadd8 : forall depth cols, 6 <= depth -> Forall (fun col => length col = 8%nat /\ bits col) cols ->
  outs usadd8 usadd_init cols = outs (fsuadd_step (scaled_cfg depth)) (fsuadd_init (scaled_cfg depth)) cols.
Proof. exact usadd8_equiv. Qed.
Print Assumptions C60_usadd8.
Theorem C60_usadd16 : forall depth cols, 7 <= depth -> Forall (fun col => length col = 16%nat /\ bits col) cols ->
  outs usadd16 usadd_init cols = outs (fsuadd_step (scaled_cfg depth)) (fsuadd_init (scaled_cfg depth)) cols.
Proof. exact usadd16_equiv. Qed.
Print Assumptions C60_usadd16.
(** uMAC_uni_scaled against the scaled unipolar FSULinear with 16 inputs and no bias. *)
Theorem C60_umac : forall ext w depth Bs h c, (1 <= w <= 30)%nat -> torch_dim1 ext -> 7 <= depth ->
  length Bs = 16%nat ->
  c = {| pc_mode := Unipolar; pc_wtc := false; pc_rng := rng_seq ext KSobol w 1; pc_in := 16; pc_out := 1;
         pc_weight := [Bs]; pc_bias := None |} ->
  Forall (fun x => length (fst x) = 16%nat /\ bits (fst x) /\ length (snd x) = 16%nat) h ->
  (forall i, (i < 16)%nat -> ones (map (fun x => nth i (fst x) 0) h) <= p2 w) ->
  exists os, outputs (run_r (flin_step c (flin_acc_cfg c None depth)) (flin_init c) (no_args (map (fun x => [fst x]) h))) = Some os /\
  outs (umac_uni w) (map (fun B => (B, sobol_rtl_init)) Bs, usadd_init) (map (fun x => (fst x, snd x, 0)) h) = lane os 0 0.
Proof. exact umac_uni_equiv. Qed.
Print Assumptions C60_umac.
(** Loading with all inputs 0 from reset reaches the initial state of [C60_umac]. *)
Theorem C60_umac_load : forall w Bs, length Bs = 16%nat ->
  umac_uni w umac_uni_init (repeat 0 16, Bs, 1) = ((map (fun B => (B, sobol_rtl_init)) Bs, usadd_init), 0).
Proof. exact umac_uni_load. Qed.
Print Assumptions C60_umac_load.
Example C60_add_ex :
  outs usadd8 usadd_init [[1;1;1;1;1;0;0;0];[0;1;1;1;1;0;0;0];[1;1;1;1;1;1;1;1]] = [0;1;1] /\
  outs (umac_uni 2) (map (fun B => (B, sobol_rtl_init)) (repeat 3 16), usadd_init)
    (map (fun b => (repeat b 16, repeat 0 16, 0)) [1;0;1;1;1]) = [1;0;1;0;1].
Proof. split; vm_compute; reflexivity. Qed.
