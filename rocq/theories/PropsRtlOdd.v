(** Properties C88-C90: the non-scaled adders, the counters that do not count what they should, and the Halton sequences of /repo/hw. *)
From Coq Require Import Permutation.
Require Import Verif.BaseLemmas Verif.AddModel Verif.RtlMoreModel Verif.RtlMoreSpec.
Require Import Verif.RtlAddProof Verif.RtlOddProof Verif.RtlHaltonProof.
Open Scope list_scope.
Open Scope Z_scope.

(** C88. uNSADD without offset is FSUAdd with scale 1, one clock later, as long as fewer than 512 ones have come. *)
Theorem C88_unsadd16 : forall depth cols, 11 <= depth -> Forall (fun col => length col = 16%nat /\ bits col) cols -> total_ones cols <= 511 ->
  outs (unsadd16 0) unsadd_init cols =
  delayed 0 (outs (fsuadd_step (unit_cfg Unipolar depth)) (fsuadd_init (unit_cfg Unipolar depth)) cols).
Proof. exact @unsadd16_equiv. Qed.
Print Assumptions C88_unsadd16.
Theorem C88_unsadd8 : forall depth cols, 11 <= depth -> Forall (fun col => length col = 8%nat /\ bits col) cols -> total_ones cols <= 511 ->
  outs (unsadd8 0) unsadd_init cols =
  delayed 0 (outs (fsuadd_step (unit_cfg Unipolar depth)) (fsuadd_init (unit_cfg Unipolar depth)) cols).
Proof. exact @unsadd8_equiv. Qed.
Print Assumptions C88_unsadd8.
Definition ex16 (n : nat) : list Z := repeat 1 n ++ repeat 0 (16 - n).
Example C88_unsadd16_ex : let cols := map ex16 [3; 0; 1; 0; 2; 0; 0; 0]%nat in total_ones cols = 6 /\
  outs (unsadd16 0) unsadd_init cols = [0; 1; 1; 1; 1; 1; 1; 0].
Proof. split; reflexivity. Qed.
(** The 512th one wraps the register: sixteen streams of ones add up to 1, and the output falls to 0. *)
Theorem C88_wrap_refuted : exists cols, Forall (fun col => col = repeat 1 16) cols /\ length cols = 33%nat /\
  nth 32 (outs (unsadd16 0) unsadd_init cols) 0 = 0 /\
  outs (fsuadd_step (unit_cfg Unipolar 12)) (fsuadd_init (unit_cfg Unipolar 12)) cols = repeat 1 33.
Proof.
  exists (repeat (repeat 1 16) 33). split; [apply Forall_forall; intros x Hx; apply repeat_spec in Hx; exact Hx|].
  split; [reflexivity|]. split; vm_compute; reflexivity.
Qed.
Print Assumptions C88_wrap_refuted.
(** uNSADD16 with its offset of 15 against the bipolar FSUAdd with scale 1: while the surplus stays in the range of the register, the
    hardware has emitted at most one more one. *)
Theorem C88_bipolar : forall depth cols z, 11 <= depth -> Forall (fun col => length col = 16%nat /\ bits col) (cols ++ [z]) ->
  (forall p, (p <= length cols)%nat -> 0 <= 2 * total_ones (firstn p cols) - 15 * Z.of_nat p <= 1022) ->
  0 <= ones (outs (unsadd16 15) unsadd_init (cols ++ [z])) -
       ones (outs (fsuadd_step (unit_cfg Bipolar depth)) (fsuadd_init (unit_cfg Bipolar depth)) cols) <= 1.
Proof. exact @unsadd15_count. Qed.
Print Assumptions C88_bipolar.
Example C88_bipolar_ex : let cols := map ex16 [8; 9; 7; 8; 9; 7; 8]%nat in
  map (fun p => 2 * total_ones (firstn p cols) - 15 * Z.of_nat p) (seq 0 8) = [0; 1; 4; 3; 4; 7; 6; 7] /\
  outs (unsadd16 15) unsadd_init (cols ++ [ex16 0]) = [0; 1; 1; 0; 0; 1; 0; 1] /\
  outs (fsuadd_step (unit_cfg Bipolar 12)) (fsuadd_init (unit_cfg Bipolar 12)) cols = [0; 1; 0; 1; 1; 0; 0].
Proof. repeat split. Qed.
(** A negative surplus wraps: sixteen streams of zeros add up to -16, the hardware says 1. *)
Theorem C88_bipolar_refuted : exists cols, Forall (fun col => col = repeat 0 16) cols /\ length cols = 61%nat /\
  outs (unsadd16 15) unsadd_init cols = 0 :: repeat 1 60 /\
  outs (fsuadd_step (unit_cfg Bipolar 12)) (fsuadd_init (unit_cfg Bipolar 12)) cols = repeat 0 61.
Proof.
  exists (repeat (repeat 0 16) 61). split; [apply Forall_forall; intros x Hx; apply repeat_spec in Hx; exact Hx|].
  split; [reflexivity|]. split; vm_compute; reflexivity.
Qed.
Print Assumptions C88_bipolar_refuted.
(** uNSADD8 has the offset of sixteen inputs: eight streams of ones, which add up to 1, come out as 0. *)
Theorem C88_unsadd8_refuted : forall depth n, 4 <= depth -> Z.of_nat n <= 1023 ->
  outs (unsadd8 15) unsadd_init (repeat (repeat 1 8) n) = map (fun i => Z.of_nat i mod 2) (seq 0 n) /\
  outs (fsuadd_step (unit_cfg Bipolar depth)) (fsuadd_init (unit_cfg Bipolar depth)) (repeat (repeat 1 8) n) = repeat 1 n.
Proof. exact @unsadd8_wrong. Qed.
Print Assumptions C88_unsadd8_refuted.
Example C88_unsadd8_ex : outs (unsadd8 15) unsadd_init (repeat (repeat 1 8) 6) = [0; 1; 0; 1; 0; 1].
Proof. reflexivity. Qed.

(** C89. CORDIV_kernel_IS_U counts up on a one and down on a zero, modulo 2^BW, and compares the counts as unsigned numbers. *)
Theorem C89_is_u : forall bw dep h, Forall (fun p => bit (is_a p) /\ bit (is_b p)) h ->
  let ks := map (is_regen bw h) (seq 0 (length h)) in
  outs (cordiv_is_u bw) (cordiv_is_init dep) h = outs cordiv_rtl (cordiv_rtl_init dep) ks.
Proof. intros bw dep h Hh. exact (proj1 (is_u_outs bw dep h Hh)). Qed.
Print Assumptions C89_is_u.
Definition ex_is : list (Z * Z * Z * Z) := [(0, 0, 1, 1); (1, 1, 1, 0); (0, 0, 0, 1); (2, 1, 1, 1); (1, 0, 0, 1); (3, 0, 1, 1)].
Example C89_is_u_ex : outs (cordiv_is_u 4) (cordiv_is_init 2) ex_is = [0; 0; 0; 0; 1; 0] /\
  map (is_regen 4 ex_is) (seq 0 6) = [(0, 0, 0); (1, 0, 0); (0, 1, 0); (1, 0, 0); (0, 1, 1); (0, 0, 0)].
Proof. split; reflexivity. Qed.
(** So 0 / 1 is 1 on every clock on which the divisor is sampled, for the first half of the counter's range. *)
Theorem C89_is_u_refuted : forall bw dep rs t, (t < length rs)%nat -> (0 < dep)%nat -> 2 * Z.of_nat (length rs) <= p2 bw ->
  nth t rs 0 < Z.of_nat t ->
  nth t (outs (cordiv_is_u bw) (cordiv_is_init dep) (map (fun r => (r, 0, 0, 1)) rs)) 0 = 1.
Proof. exact @is_u_zero. Qed.
Print Assumptions C89_is_u_refuted.
Example C89_is_u_zero_ex : outs (cordiv_is_u 4) (cordiv_is_init 2) (map (fun r => (r, 0, 0, 1)) [0; 0; 1; 2; 0; 4; 2; 1]) = [0; 1; 1; 1; 1; 1; 1; 1].
Proof. reflexivity. Qed.
(** CORDIV_kernel_IS_B: the sign bit is set for counts that are not negative, and the magnitude is the range minus the magnitude. *)
Theorem C89_is_b : forall b dep h, Forall (fun p => bit (is_a p) /\ bit (is_b p)) h ->
  let ks := map (is_regen_b b h) (seq 0 (length h)) in
  outs (cordiv_is_b b) (cordiv_is_init dep) h = map2 Z.lxor (outs cordiv_rtl (cordiv_rtl_init dep) ks) (map (is_flip b h) (seq 0 (length h))).
Proof. intros b dep h Hh. exact (proj1 (is_b_outs b dep h Hh)). Qed.
Print Assumptions C89_is_b.
Theorem C89_is_b_sign : forall b x, 0 <= x < p2 (S b) ->
  is_sign b x = b2z (0 <=? signed b x) /\ is_abs b x = if signed b x =? 0 then 0 else p2 (S b) - Z.abs (signed b x).
Proof. intros b x Hx. split; [exact (is_sign_signed b x Hx)|exact (is_abs_signed b x Hx)]. Qed.
Print Assumptions C89_is_b_sign.
Example C89_is_b_ex : outs (cordiv_is_b 3) (cordiv_is_init 2) ex_is = [0; 1; 0; 1; 1; 1] /\
  map (signed 3) [3; 13; 0] = [3; -3; 0] /\ map (is_sign 3) [3; 13; 0] = [1; 0; 1] /\ map (is_abs 3) [3; 13; 0] = [13; 13; 0] /\
  map (is_regen_b 3 ex_is) (seq 0 6) = [(0, 0, 0); (1, 1, 1); (0, 1, 0); (1, 1, 1); (0, 1, 1); (0, 1, 1)] /\ map (is_flip 3 ex_is) (seq 0 6) = [0; 0; 0; 0; 0; 0].
Proof. repeat split. Qed.

(** The old relu (DEPTH = S d) never counts down: it passes the input except for the ones with the numbers 2^d to 2^(d+1)-1. *)
Theorem C89_relu : forall d xs, bits xs ->
  outs (relu_rtl d) (relu_rtl_init d) xs =
    map (fun t => if relu_gap d (ones (firstn t xs)) then 0 else nth t xs 0) (seq 0 (length xs)) /\
  ones (outs (relu_rtl d) (relu_rtl_init d) xs) = ones xs - zclamp 0 (p2 d) (ones xs - p2 d).
Proof. exact @relu_outs. Qed.
Print Assumptions C89_relu.
Example C89_relu_ex : outs (relu_rtl 1) (relu_rtl_init 1) [1; 0; 1; 0; 0; 1; 1; 1; 0; 1; 0] = [1; 0; 1; 0; 0; 0; 0; 1; 0; 1; 0].
Proof. reflexivity. Qed.
(** It does not rectify: a stream with at most 2^d ones, however negative, is passed unchanged. *)
Theorem C89_relu_refuted : forall d xs, bits xs -> ones xs <= p2 d -> outs (relu_rtl d) (relu_rtl_init d) xs = xs.
Proof. exact @relu_passes. Qed.
Print Assumptions C89_relu_refuted.
Example C89_relu_negative_ex : let xs := repeat 0 20 ++ [1] ++ repeat 0 20 in ones xs = 1 /\ outs (relu_rtl 3) (relu_rtl_init 3) xs = xs.
Proof. split; reflexivity. Qed.
(** The old sqrt never counts down either: it emits a one for every random number up to 32, whatever the input; the root of 0 is 33/64. *)
Theorem C89_sqrt : forall h t, Forall (fun p => bit (snd p)) h -> (t < length h)%nat ->
  fst (nth t h (0, 0)) <= 32 -> nth t (outs sqrt_old sqrt_old_init h) 0 = 1.
Proof. exact @sqrt_old_floor. Qed.
Print Assumptions C89_sqrt.
Theorem C89_sqrt_zero_refuted : forall rs, outs sqrt_old sqrt_old_init (map (fun r => (r, 0)) rs) = map (fun r => b2z (r <=? 32)) rs.
Proof.
  intros rs. unfold sqrt_old_init. rewrite sqrt_old_zero; [rewrite map_map; reflexivity|]. apply Forall_map, Forall_forall. reflexivity.
Qed.
Print Assumptions C89_sqrt_zero_refuted.
Example C89_sqrt_ex : outs sqrt_old sqrt_old_init [(10, 0); (33, 1); (33, 1); (40, 0); (32, 0); (35, 1); (20, 0)] = [1; 0; 1; 0; 1; 0; 1] /\
  ones (outs sqrt_old sqrt_old_init (map (fun r => (r, 0)) (zrange 64))) = 33.
Proof. split; reflexivity. Qed.
(** SkewedSyncInt: while the inputs fit the register, each one of in1 releases everything that came in since reset, again and again. *)
Theorem C89_syncint : forall d h, Forall (fun p => 0 <= fst p /\ bit (snd p)) h -> zsum (map fst h) < p2 (S d) ->
  outs (skewedsyncint_rtl d) skewedsyncint_rtl_init h =
    map (fun t => let x := snd (nth t h (0, 0)) in ((if x =? 1 then zsum (map fst (firstn (S t) h)) else 0), x)) (seq 0 (length h)).
Proof. intros d h Hh Hs. exact (syncint_run d h Hh 0 ltac:(lia) Hs). Qed.
Print Assumptions C89_syncint.
Example C89_syncint_ex : outs (skewedsyncint_rtl 2) skewedsyncint_rtl_init [(1, 0); (2, 1); (0, 1); (1, 0); (0, 1)] =
  [(0, 0); (3, 1); (3, 1); (0, 0); (4, 1)].
Proof. reflexivity. Qed.
Theorem C89_syncint_refuted : forall d n, let h := (1, 1) :: repeat (0, 1) n in
  zsum (map fst h) = 1 /\ zsum (map fst (outs (skewedsyncint_rtl d) skewedsyncint_rtl_init h)) = Z.of_nat (S n).
Proof. exact @syncint_wrong. Qed.
Print Assumptions C89_syncint_refuted.

(** BISQRT_S_IS_U with one register: no square root; every second bit is the or of two input bits, the others are input bits. *)
Theorem C89_bisqrt_u : forall n h, length h = (2 * n)%nat -> Forall (fun p => bit (snd p)) h ->
  let xs := map snd h in let os := outs bisqrt_is_u (bisqrt_is_u_init 1) h in
  forall k, (k < n)%nat ->
  let before := match k with O => 0 | S j => nth (2 * j + 1) xs 0 end in
  nth (2 * k) os 0 = before /\ nth (2 * k + 1) os 0 = Z.lor before (nth (2 * k) xs 0).
Proof. intros n h Hl Hh. exact (bisqrt_is_u_pairs n h 0 Hl Hh (or_introl eq_refl)). Qed.
Print Assumptions C89_bisqrt_u.
Example C89_bisqrt_u_ex : outs bisqrt_is_u (bisqrt_is_u_init 1) (map (fun x => (0, x)) [1; 0; 0; 1; 0; 0]) = [0; 1; 0; 0; 1; 1].
Proof. reflexivity. Qed.
(** The root of 1/2 is 1/2 when the ones come on every other clock. *)
Theorem C89_bisqrt_u_refuted : forall n rs, length rs = (2 * n)%nat -> let h := map2 pair rs (concat (repeat [1; 0] n)) in
  ones (map snd h) = Z.of_nat n /\ ones (outs bisqrt_is_u (bisqrt_is_u_init 1) h) = Z.of_nat n.
Proof. exact @bisqrt_is_u_ramp. Qed.
Print Assumptions C89_bisqrt_u_refuted.
Theorem C89_bisqrt_b : forall n h, length h = (2 * n)%nat -> Forall (fun p => bit (snd p)) h ->
  let xs := map snd h in let us := outs (bi2uni_rtl 2) (bi2uni_rtl_init 2) xs in let os := outs bisqrt_is_b (bisqrt_is_b_init 1) h in
  forall k, (k < n)%nat ->
  nth (2 * k) os 0 = Z.lor (nth (2 * k) us 0) (nth (2 * k) xs 0) /\ nth (2 * k + 1) os 0 = nth (2 * k + 1) xs 0.
Proof. intros n h Hl Hh. exact (bisqrt_is_b_pairs n h (bi2uni_rtl_init 2) Hl Hh). Qed.
Print Assumptions C89_bisqrt_b.
Example C89_bisqrt_b_ex : outs bisqrt_is_b (bisqrt_is_b_init 1) (map (fun x => (0, x)) [1; 0; 1; 1; 0; 0]) = [1; 0; 1; 1; 1; 0].
Proof. reflexivity. Qed.
(** Both with any number of registers. *)
Theorem C89_bisqrt_u_any : forall dep h, (1 <= dep)%nat -> Forall (fun p => bit (snd p)) h -> h <> [] ->
  let os := outs bisqrt_is_u (bisqrt_is_u_init dep) h in
  exists qs, is_quotients dep (map fst h) os qs /\ os = 0 :: removelast (map2 (fun q x => if q =? 1 then 1 else x) qs (map snd h)).
Proof. exact @bisqrt_is_u_any. Qed.
Print Assumptions C89_bisqrt_u_any.
Theorem C89_bisqrt_b_any : forall dep h, (1 <= dep)%nat -> Forall (fun p => bit (snd p)) h ->
  exists qs, is_quotients dep (map fst h) (outs (bi2uni_rtl 2) (bi2uni_rtl_init 2) (map snd h)) qs /\
  outs bisqrt_is_b (bisqrt_is_b_init dep) h = map2 (fun q x => if q =? 1 then 1 else x) qs (map snd h).
Proof. exact @bisqrt_is_b_any. Qed.
Print Assumptions C89_bisqrt_b_any.
(** With two registers the initial 1 and quotients of earlier pairs come back. *)
Example C89_bisqrt_any_ex : outs bisqrt_is_u (bisqrt_is_u_init 2) [(1, 0); (0, 0); (0, 0); (1, 1); (1, 0); (0, 0)] = [0; 1; 0; 1; 1; 1] /\
  outs bisqrt_is_b (bisqrt_is_b_init 2) [(1, 0); (0, 0); (0, 0); (1, 1); (1, 0); (0, 0)] = [1; 0; 1; 1; 0; 0].
Proof. vm_compute. split; reflexivity. Qed.
(** ISCBDIV_B is the composition of the modules of C54 and C60. *)
Theorem C89_iscbdiv_b : forall d dep ds h,
  let sa := outs (abs_rtl d) (abs_rtl_init d) (map in_dividend h) in let sb := outs (abs_rtl d) (abs_rtl_init d) (map in_divisor h) in
  let ua := outs (bi2uni_rtl 2) (bi2uni_rtl_init 2) (map snd sa) in let ub := outs (bi2uni_rtl 2) (bi2uni_rtl_init 2) (map snd sb) in
  let qu := outs (iscbdiv_u ds) (iscbdiv_u_init dep) (map2 (fun r ab => (r, fst ab, snd ab)) (map (fun p => fst (fst p)) h) (combine ua ub)) in
  outs (iscbdiv_b d ds) (iscbdiv_b_init d dep) h =
  map2 Z.lxor (map2 Z.lxor (outs uni2bi_rtl uni2bi_rtl_init qu) (map fst sa)) (map fst sb).
Proof. intros d dep ds h. exact (iscbdiv_b_run d ds h _ _ _ _ _ _). Qed.
Print Assumptions C89_iscbdiv_b.
Example C89_iscbdiv_b_ex : outs (iscbdiv_b 2 2) (iscbdiv_b_init 2 2)
  [(0, 1, 1); (1, 1, 1); (0, 1, 0); (1, 0, 1); (1, 1, 1); (0, 1, 1); (1, 1, 1); (0, 0, 1)] = [0; 0; 1; 1; 1; 1; 1; 1].
Proof. reflexivity. Qed.

(** C90. HaltonSeq2 emits the radical inverses of 0, 1, 2, ... in base 2; HaltonSeq3 and HaltonSeq5 those in base 3 and 5, one clock later. *)
Theorem C90_halton2 : forall n h, outs halton2_rtl (halton2_rtl_init n) h = map (fun k => radical_inverse 2 n (Z.of_nat k)) (seq 0 (length h)).
Proof. exact @halton2_outs. Qed.
Print Assumptions C90_halton2.
Theorem C90_halton : forall b wd n h, 2 <= b -> b ^ Z.of_nat n <= p2 wd ->
  outs (halton_rtl b wd) (halton_rtl_init n) h = delayed 0 (map (fun k => radical_inverse b n (Z.of_nat k)) (seq 0 (length h))).
Proof. exact @halton_outs. Qed.
Print Assumptions C90_halton.
Theorem C90_halton3 : forall h, outs (halton_rtl 3 8) (halton_rtl_init 5) h = delayed 0 (map (fun k => radical_inverse 3 5 (Z.of_nat k)) (seq 0 (length h))).
Proof. intros h. apply halton_outs; [lia|vm_compute; discriminate]. Qed.
Print Assumptions C90_halton3.
Theorem C90_halton5 : forall h, outs (halton_rtl 5 7) (halton_rtl_init 3) h = delayed 0 (map (fun k => radical_inverse 5 3 (Z.of_nat k)) (seq 0 (length h))).
Proof. intros h. apply halton_outs; [lia|vm_compute; discriminate]. Qed.
Print Assumptions C90_halton5.
Example C90_halton_ex : outs halton2_rtl (halton2_rtl_init 3) (repeat tt 9) = [0; 4; 2; 6; 1; 5; 3; 7; 0] /\
  outs (halton_rtl 3 4) (halton_rtl_init 2) (repeat tt 11) = [0; 0; 3; 6; 1; 4; 7; 2; 5; 8; 0].
Proof. split; reflexivity. Qed.
(** Every aligned block of b^j values, j up to n, hits each of the b^j intervals of length b^(n-j) exactly once; with j = n: each period
    lists every value once. *)
Theorem C90_stratified : forall b n j q m, 2 <= b -> (j <= n)%nat -> Z.of_nat m = b ^ Z.of_nat j ->
  Permutation (map (fun i => radical_inverse b n (q * b ^ Z.of_nat j + Z.of_nat i) / b ^ Z.of_nat (n - j)) (seq 0 m)) (zrange m).
Proof. intros b n j q m Hb. exact (radical_stratified b Hb n j q m). Qed.
Print Assumptions C90_stratified.
Theorem C90_period : forall b n q m, 2 <= b -> Z.of_nat m = b ^ Z.of_nat n ->
  Permutation (map (fun i => radical_inverse b n (q * b ^ Z.of_nat n + Z.of_nat i)) (seq 0 m)) (zrange m).
Proof. intros b n q m Hb. exact (radical_block b Hb n q m). Qed.
Print Assumptions C90_period.
Example C90_stratified_ex : map (fun i => radical_inverse 3 2 (5 * 3 ^ 1 + Z.of_nat i) / 3 ^ 1) (seq 0 3) = [0; 1; 2] /\
  map (fun i => radical_inverse 2 3 (1 * 2 ^ 2 + Z.of_nat i) / 2 ^ 1) (seq 0 4) = [0; 2; 1; 3].
Proof. split; reflexivity. Qed.
