(** Properties C50 and C58: float32 counters and accumulators. *)
Require Import Verif.BaseLemmas Verif.UtilsModel Verif.MetricModel Verif.AddModel Verif.Float32Model Verif.Float32Proof.
Open Scope Z_scope.

(** C58. The rounding function of the model is the rounding to nearest of the binary32 format: it returns a number of the
    format, none is nearer, numbers of the format are kept, it is monotone, and its relative error is at most 2^-24. *)
Theorem C58_f32_single : forall q, single (f32 q).
Proof. exact f32_single. Qed.
Print Assumptions C58_f32_single.
Theorem C58_f32_nearest : forall q r, single r -> (Qabs (q - f32 q) <= Qabs (q - r))%Q.
Proof. exact f32_nearest. Qed.
Print Assumptions C58_f32_nearest.
Theorem C58_f32_fixed : forall q, single q -> (f32 q == q)%Q.
Proof. exact f32_fixed. Qed.
Print Assumptions C58_f32_fixed.
Theorem C58_f32_monotone : forall a b, (a <= b)%Q -> (f32 a <= f32 b)%Q.
Proof. exact f32_monotone. Qed.
Print Assumptions C58_f32_monotone.
Theorem C58_f32_relative : forall q, (qpow2 (-126) <= Qabs q)%Q -> (Qabs (f32 q - q) <= Qabs q * qpow2 (-24))%Q.
Proof. exact f32_relative. Qed.
Print Assumptions C58_f32_relative.
(** The adder computed in float32 is the exact adder when its numbers are on a binary grid of 24 bits ... *)
Theorem C58_adder_exact : forall c col cols g E,
  let e := match fa_entry c with Some e => e | None => zlen col end in
  let s := match fa_scale c with Some q => q | None => inject_Z e end in
  0 <= g <= 100 -> 2 - g - 1 <= fa_depth c -> dyadic g s ->
  Forall (fun x => 0 <= zsum x <= E) (col :: cols) -> 0 <= e <= E ->
  (qpow2 (fa_depth c - 2) + 2 * inject_Z E + 2 * Qabs s <= qpow2 (23 - g))%Q ->
  outs (fsuadd32_step c) (fsuadd_init c) (col :: cols) = outs (fsuadd_step c) (fsuadd_init c) (col :: cols).
Proof. exact fsuadd32_exact. Qed.
Print Assumptions C58_adder_exact.
(** ... and not in general. *)
Theorem C58_adder_general_refuted : exists c cols, Forall (Forall bit) cols /\
  outs (fsuadd32_step c) (fsuadd_init c) cols <> outs (fsuadd_step c) (fsuadd_init c) cols.
Proof. exact fsuadd32_thirds. Qed.
Print Assumptions C58_adder_general_refuted.
Example C58_ex : Qeq (f32 (1 # 3)) (11184811 # 33554432) /\ Qeq (f32 (inject_Z (2 ^ 24 + 3))) (inject_Z (2 ^ 24 + 4)) /\
  (let c := {| fa_mode := Bipolar; fa_scale := Some (5 # 2)%Q; fa_depth := 10; fa_entry := Some 4 |} in
   dyadic 1 (5 # 2) /\ (qpow2 (fa_depth c - 2) + 2 * inject_Z 4 + 2 * Qabs (5 # 2) <= qpow2 (23 - 1))%Q /\
   outs (fsuadd32_step c) (fsuadd_init c) [[1; 1; 0; 1]; [1; 1; 1; 1]; [0; 0; 1; 0]] = [0; 1; 1]).
Proof.
  split; [vm_compute; reflexivity|]. split; [vm_compute; reflexivity|]. cbn zeta. split; [exists 5; vm_compute; reflexivity|].
  split; [vm_compute; discriminate|vm_compute; reflexivity].
Qed.

(** C50. ProgError's counters are the counts capped at 2^24. *)
Theorem C50_progerror_counters : forall xs, bits xs ->
  (pe32_cycle (pe32_monitors pe32_init xs) == inject_Z (Z.min (zlen xs) (2 ^ 24)))%Q /\
  (pe32_one (pe32_monitors pe32_init xs) == inject_Z (Z.min (ones xs) (2 ^ 24)))%Q.
Proof. exact pe32_counters. Qed.
Print Assumptions C50_progerror_counters.
(** Up to 2^24 cycles the reported value is right up to rounding, exact at powers of two; beyond it is too large. *)
Theorem C50_progerror_short : forall m src xs, bits xs -> xs <> [] -> zlen xs <= 2 ^ 24 ->
  exists pp pe, pe32_forward m src (pe32_monitors pe32_init xs) = Some (pp, pe) /\
    (Qabs (pp - value m xs) <= (match m with Unipolar => 1 | Bipolar => 3 end) * qpow2 (-24))%Q /\
    (pe == f32 (pp - src))%Q.
Proof. exact pe32_short. Qed.
Print Assumptions C50_progerror_short.
Theorem C50_progerror_period : forall m src xs k, bits xs -> 0 <= k <= 24 -> zlen xs = 2 ^ k ->
  exists pp pe, pe32_forward m src (pe32_monitors pe32_init xs) = Some (pp, pe) /\ (pp == value m xs)%Q /\ (pe == f32 (value m xs - src))%Q.
Proof. exact pe32_period. Qed.
Print Assumptions C50_progerror_period.
Theorem C50_progerror_long : forall m src xs, bits xs -> 2 ^ 24 < zlen xs ->
  exists pp pe, pe32_forward m src (pe32_monitors pe32_init xs) = Some (pp, pe) /\
    (pp == let v := inject_Z (Z.min (ones xs) (2 ^ 24)) / inject_Z (2 ^ 24) in match m with Unipolar => v | Bipolar => 2 * v - 1 end)%Q /\
    (0 < ones xs < zlen xs -> (value m xs < pp)%Q).
Proof. exact pe32_long. Qed.
Print Assumptions C50_progerror_long.
(** Stability's cycle_to_stable is capped as well. *)
Theorem C50_stability_counters : forall m src thr xs, bits xs ->
  let s := stab32_monitors m src thr stab32_init xs in
  sb32_pe s = pe32_monitors pe32_init xs /\
  (sb32_cts s == inject_Z (Z.min (last_index (pe32_off m src thr) 1 (map (fun k => firstn (S k) xs) (seq 0 (length xs)))) (2 ^ 24)))%Q.
Proof. exact stab32_state. Qed.
Print Assumptions C50_stability_counters.
(** The value Stability returns for a stream that is not empty, and its range. *)
Theorem C50_stability_value : forall m src thr xs, bits xs -> xs <> [] ->
  let cts := last_index (pe32_off m src thr) 1 (map (fun k => firstn (S k) xs) (seq 0 (length xs))) in
  let v := stab32_forward (stab32_monitors m src thr stab32_init xs) in
  (v == f32 (1 - f32 (inject_Z (Z.max 1 (Z.min cts (2 ^ 24))) / inject_Z (Z.min (zlen xs) (2 ^ 24)))))%Q /\ (0 <= v < 1)%Q.
Proof. exact stab32_value. Qed.
Print Assumptions C50_stability_value.
Example C50_stability_value_ex : bits [1; 0; 0; 1] /\
  (stab32_forward (stab32_monitors Unipolar (1 # 2) (1 # 8) stab32_init [1; 0; 0; 1]%Z) == 1 # 4)%Q /\
  (stab32_forward (stab32_monitors Unipolar (1 # 2) 1 stab32_init [1; 0; 0; 1]%Z) == 3 # 4)%Q.
Proof. split; [repeat (apply Forall_cons; [unfold bit; lia|]); apply Forall_nil|]. split; vm_compute; reflexivity. Qed.
Theorem C50_correlation_counters : forall h, Forall bitpair h ->
  let s := corr32_monitors corr32_init h in
  (c32_a s == inject_Z (Z.min (pairs 1 1 h) (2 ^ 24)) /\ c32_b s == inject_Z (Z.min (pairs 1 0 h) (2 ^ 24)) /\
   c32_c s == inject_Z (Z.min (pairs 0 1 h) (2 ^ 24)) /\ c32_d s == inject_Z (Z.min (pairs 0 0 h) (2 ^ 24)) /\
   c32_len s == inject_Z (Z.min (zlen h) (2 ^ 24)))%Q.
Proof. exact corr32_counters. Qed.
Print Assumptions C50_correlation_counters.
(** Correlation multiplies its counters: it is exact up to one final rounding for 4096 cycles, and can lose the sign of the
    correlation at 16388 cycles, long before the counters stop. *)
Theorem C50_correlation_short : forall h, Forall bitpair h -> zlen h <= 4096 ->
  (corr32_forward (corr32_monitors corr32_init h) ==
   f32 (corr_forward (corr_monitors corr_init (map (fun p => (fst p, Some (snd p))) h))))%Q.
Proof. exact corr32_short. Qed.
Print Assumptions C50_correlation_short.
Theorem C50_correlation_sign_refuted : exists h, Forall bitpair h /\ zlen h = 16388 /\
  (0 < corr_forward (corr_monitors corr_init (map (fun p => (fst p, Some (snd p))) h)))%Q /\
  (corr32_forward (corr32_monitors corr32_init h) == 0)%Q.
Proof. exact corr32_sign. Qed.
Print Assumptions C50_correlation_sign_refuted.
Example C50_ex :
  match pe32_forward Bipolar (1 # 4) (pe32_monitors pe32_init [1; 0; 1; 1]) with
  | Some (pp, pe) => Qeq_bool pp (1 # 2) && Qeq_bool pe (1 # 4) | None => false end = true /\
  match pe32_forward Unipolar 0 (pe32_monitors pe32_init [1; 0; 0]) with
  | Some (pp, pe) => Qeq_bool pp (11184811 # 33554432) && negb (Qeq_bool pp (1 # 3)) | None => false end = true /\
  Qeq (corr32_forward (corr32_monitors corr32_init [(1, 1); (1, 0); (0, 1); (0, 0); (1, 1); (0, 0)])) (11184811 # 33554432) /\
  (exists xs, bits xs /\ 2 ^ 24 < zlen xs /\ 0 < ones xs < zlen xs).
Proof.
  split; [vm_compute; reflexivity|]. split; [vm_compute; reflexivity|].
  split; [vm_compute; reflexivity|].
  exact long_stream.
Qed.
