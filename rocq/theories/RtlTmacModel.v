(** SystemVerilog: the temporally coded multiply-accumulate units tMAC of hw/kernel/old/MAC16. *)
Require Export Verif.RtlMacModel.
Open Scope Z_scope.

(** MAC16/tMAC_uni_scaled/tMUL_uni.sv:14-60 and tMAC_bi_scaled/tMUL_bi.sv:14-60: the registers of tMUL of RtlMoreModel.v (iA_buf, stop,
    iB_buf, generator), but the generator is always enabled. The output port stop is left out: in tMAC_uni_scaled.sv:43 the sixteen of them
    drive one net that nothing reads. *)
Definition tmac_mul_uni (st : tmul_regs) (inp : mul_in) : tmul_regs * Z :=
  let '((bufA, stop, bufB), r) := st in
  let '(iA, iB, loadA, loadB) := inp in
  let '(r', sobolSeq) := sobol_rtl 8 r 1 in
  let '(bufA', stop') := tmul_count 8 bufA loadA iA in
  (((bufA', stop', mul_load loadB iB bufB), r'), Z.land (bnot stop) (b2z (bufB >? sobolSeq))).
Definition tmac_mul_bi (st : tmul_regs) (inp : mul_in) : tmul_regs * Z :=
  let '((bufA, stop, bufB), r) := st in
  let '(iA, iB, loadA, loadB) := inp in
  let '(r', sobolSeq) := sobol_rtl 8 r 1 in
  let '(bufA', stop') := tmul_count 8 bufA loadA iA in
  (((bufA', stop', mul_load loadB iB bufB), r'), bnot (Z.lxor (bnot stop) (b2z (bufB >? sobolSeq)))).
(** MAC16/tMAC_uni_scaled/tMAC_uni_scaled.sv:32-62 and tMAC_bi_scaled.sv:32-62. Inputs: per lane (iA, iB, loadA, loadB), the load signals
    being common. *)
Definition tmac_uni_scaled : list tmul_regs * ((Z * Z) * Z) -> list mul_in -> (list tmul_regs * ((Z * Z) * Z)) * Z :=
  wired (mac_lanes tmac_mul_uni) mux_sel.
Definition tmac_bi_scaled : list tmul_regs * ((Z * Z) * Z) -> list mul_in -> (list tmul_regs * ((Z * Z) * Z)) * Z :=
  wired (mac_lanes tmac_mul_bi) mux_sel.
Definition tmac_init : list tmul_regs * ((Z * Z) * Z) := (repeat tmul_init 16, mux_sel_init).

(** MAC16/tMAC_uni_nonscaled/tMUL_uni.sv:13-50: the random number is an input. *)
Definition tmac_mul_shared (st : Z * Z * Z) (inp : mul_in * Z) : (Z * Z * Z) * Z :=
  let '(bufA, stop, bufB) := st in
  let '((iA, iB, loadA, loadB), sobolSeq) := inp in
  let '(bufA', stop') := tmul_count 8 bufA loadA iA in
  ((bufA', stop', mul_load loadB iB bufB), Z.land (bnot stop) (b2z (bufB >? sobolSeq))).
(** MAC16/tMAC_uni_nonscaled/tMAC_uni_nonscaled.sv:13-82; registers (two generators), multipliers, cnt, sum0, sum. *)
Definition tmac_ns_regs : Type := ((Z * Z) * (Z * Z)) * list (Z * Z * Z) * list Z * list Z * Z.
Definition tmac_ns_init : tmac_ns_regs := ((sobol_rtl_init, sobol_rtl_init), repeat (0, 1, 0) 16, repeat 0 16, repeat 0 4, 0).
Definition tmac_uni_nonscaled (st : tmac_ns_regs) (ins : list mul_in) : tmac_ns_regs * Z :=
  let '((r, rC), muls, cnt, sum0, sum) := st in
  let '(r', sobolSeq) := sobol_rtl 8 r 1 in
  let '(rC', sobolSeqC) := sobol_rtl 8 rC 1 in
  let '(muls', mulC) := mac_lanes tmac_mul_shared muls (map (fun i => (i, sobolSeq)) ins) in
  (((r', rC'), muls', map2 (fun c m => trunc 8 (c + m)) cnt mulC,
    [trunc 8 (nth 0 cnt 0 + nth 1 cnt 0 + nth 2 cnt 0 + nth 3 cnt 0);
     trunc 8 (nth 4 cnt 0 + nth 5 cnt 0 + nth 6 cnt 0 + nth 7 cnt 0);
     trunc 8 (nth 8 cnt 0 + nth 9 cnt 0 + nth 10 cnt 0 + nth 11 cnt 0);
     trunc 8 (nth 12 cnt 0 + nth 13 cnt 0 + nth 14 cnt 0 + nth 15 cnt 0)],
    trunc 8 (nth 0 sum0 0 + nth 1 sum0 0 + nth 2 sum0 0 + nth 3 sum0 0)),
   b2z (sum >? sobolSeqC)).
