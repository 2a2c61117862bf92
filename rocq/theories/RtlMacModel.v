(** SystemVerilog: the multiply-accumulate units of hw/kernel/old/MAC16. *)
Require Export Verif.RtlMoreModel.
Open Scope Z_scope.

(** Sixteen multipliers side by side (the generate loops of the units). *)
Definition mac_lanes {M I : Type} (mul : M -> I -> M * Z) (muls : list M) (ins : list I) : list M * list Z :=
  let rs := map2 mul muls ins in (map fst rs, map snd rs).
(** The outputs of one module wired to the inputs of the next. *)
Definition wired {S1 S2 I1 I2 O : Type} (f : S1 -> I1 -> S1 * I2) (g : S2 -> I2 -> S2 * O) (st : S1 * S2) (x : I1) : (S1 * S2) * O :=
  let '(s1', y) := f (fst st) x in let '(s2', z) := g (snd st) y in ((s1', s2'), z).

(** MAC16/gainMAC_uni_scaled/muxADD.sv:8-22 and SobolRNGDim1_4b.sv with the wiring of gainMAC_uni_scaled.sv:50-63; the one-bit port
    declarations that are repeated with their real width are read with that. Registers (generator, out). *)
Definition mux_sel (st : (Z * Z) * Z) (x : list Z) : ((Z * Z) * Z) * Z :=
  let '(r, out) := st in let '(r', sel) := sobol_rtl 4 r 1 in ((r', nth (Z.to_nat sel) x 0), out).
Definition mux_sel_init : (Z * Z) * Z := (sobol_rtl_init, 0).
(** MAC16/gainMAC_uni_nonscaled/orADD.sv:8-14. *)
Definition oradd (out : Z) (x : list Z) : Z * Z := (b2z (existsb (Z.eqb 1) x), out).

(** MAC16/gainMAC_uni_scaled/gainMAC_uni_scaled.sv:15-63, gainMAC_bi_scaled.sv:15-63, gainMAC_uni_nonscaled.sv:14-53: each lane has two
    generators of its own and the registers of gMUL, [gmul_uni 8] of RtlMoreModel.v with its generators inside. Inputs: per lane (iA, iB,
    loadA, loadB), the load signals being common. *)
Definition gainmac_uni_scaled : list mul_regs * ((Z * Z) * Z) -> list mul_in -> (list mul_regs * ((Z * Z) * Z)) * Z :=
  wired (mac_lanes (gmul_uni 8)) mux_sel.
Definition gainmac_bi_scaled : list mul_regs * ((Z * Z) * Z) -> list mul_in -> (list mul_regs * ((Z * Z) * Z)) * Z :=
  wired (mac_lanes (gmul_bi 8)) mux_sel.
Definition gainmac_uni_nonscaled : list mul_regs * Z -> list mul_in -> (list mul_regs * Z) * Z := wired (mac_lanes (gmul_uni 8)) oradd.
Definition gainmac_init {A : Type} (a : A) : list mul_regs * A := (repeat gmul_init 16, a).

(** MAC16/dMAC_uni_scaled/dMUL_uni.sv:13-44 and dMAC_bi_scaled/dMUL_bi.sv:13-44; registers (iA_buf, iB_buf), the random numbers are inputs. *)
Definition dmac_mul_uni (st : Z * Z) (inp : mul_in * (Z * Z)) : (Z * Z) * Z :=
  let '(bufA, bufB) := st in
  let '((iA, iB, loadA, loadB), (sobolSeqA, sobolSeqB)) := inp in
  ((mul_load loadA iA bufA, mul_load loadB iB bufB), Z.land (b2z (bufA >? sobolSeqA)) (b2z (bufB >? sobolSeqB))).
Definition dmac_mul_bi (st : Z * Z) (inp : mul_in * (Z * Z)) : (Z * Z) * Z :=
  let '(bufA, bufB) := st in
  let '((iA, iB, loadA, loadB), (sobolSeqA, sobolSeqB)) := inp in
  ((mul_load loadA iA bufA, mul_load loadB iB bufB), bnot (Z.lxor (b2z (bufA >? sobolSeqA)) (b2z (bufB >? sobolSeqB)))).
(** MAC16/dMAC_uni_scaled/dMAC_uni_scaled.sv:15-78 (dMAC_bi_scaled.sv is the same with dMUL_bi): registers (cntA, cntB), two generators, the
    multipliers, the generator of the selection, out. The widths 8 and 4 are parameters here. *)
Definition dmac_regs : Type := (Z * Z) * ((Z * Z) * (Z * Z)) * list (Z * Z) * ((Z * Z) * Z).
Definition dmac_init : dmac_regs := ((0, 0), (sobol_rtl_init, sobol_rtl_init), repeat (0, 0) 16, (sobol_rtl_init, 0)).
Definition dmac_scaled (w s : nat) (mul : Z * Z -> mul_in * (Z * Z) -> (Z * Z) * Z) (st : dmac_regs) (ins : list mul_in) : dmac_regs * Z :=
  let '((cntA, cntB), (rA, rB), muls, (rS, out)) := st in
  let '(rA', sobolSeqA) := sobol_rtl w rA 1 in
  let '(rB', sobolSeqB) := sobol_rtl w rB (b2z (red_and w cntB)) in
  let '(muls', mulC) := mac_lanes mul muls (map (fun i => (i, (sobolSeqA, sobolSeqB))) ins) in
  let '(rS', sel) := sobol_rtl s rS (b2z (red_and w cntB)) in
  (((trunc w (cntA + 1), trunc w (cntB + b2z (red_and w cntA))), (rA', rB'), muls', (rS', nth (Z.to_nat sel) mulC 0)), out).
Definition dmac_uni_scaled : dmac_regs -> list mul_in -> dmac_regs * Z := dmac_scaled 8 4 dmac_mul_uni.
Definition dmac_bi_scaled : dmac_regs -> list mul_in -> dmac_regs * Z := dmac_scaled 8 4 dmac_mul_bi.
(** MAC16/dMAC_uni_nonscaled/dMAC_uni_nonscaled.sv:14-70. *)
Definition dmac_or_regs : Type := (Z * Z) * ((Z * Z) * (Z * Z)) * list (Z * Z) * Z.
Definition dmac_or_init : dmac_or_regs := ((0, 0), (sobol_rtl_init, sobol_rtl_init), repeat (0, 0) 16, 0).
Definition dmac_uni_nonscaled (w : nat) (st : dmac_or_regs) (ins : list mul_in) : dmac_or_regs * Z :=
  let '((cntA, cntB), (rA, rB), muls, out) := st in
  let '(rA', sobolSeqA) := sobol_rtl w rA 1 in
  let '(rB', sobolSeqB) := sobol_rtl w rB (b2z (red_and w cntB)) in
  let '(muls', mulC) := mac_lanes dmac_mul_uni muls (map (fun i => (i, (sobolSeqA, sobolSeqB))) ins) in
  (((trunc w (cntA + 1), trunc w (cntB + b2z (red_and w cntA))), (rA', rB'), muls', b2z (existsb (Z.eqb 1) mulC)), out).

(** MAC16/uMAC_bi_scaled/uMAC_bi_scaled.sv:12-33, uMAC_uni_nonscaled/uMAC_uni_nonscaled.sv:12-33 (its uNSADD16 has OFFSET 0) and
    uMAC_bi_nonscaled/uMAC_bi_nonscaled.sv:12-33 (OFFSET 15). Inputs: per lane (iA, iB, loadB), the load signal being common. *)
Definition umac_bi_scaled (w : nat) : list (Z * ((Z * Z) * (Z * Z))) * Z -> list (Z * Z * Z) -> (list (Z * ((Z * Z) * (Z * Z))) * Z) * Z :=
  wired (mac_lanes (umul_bi w)) usadd16.
Definition umac_uni_nonscaled (w : nat) : list (Z * (Z * Z)) * (Z * Z) -> list (Z * Z * Z) -> (list (Z * (Z * Z)) * (Z * Z)) * Z :=
  wired (mac_lanes (umul_uni w)) (unsadd16 0).
Definition umac_bi_nonscaled (w : nat)
  : list (Z * ((Z * Z) * (Z * Z))) * (Z * Z) -> list (Z * Z * Z) -> (list (Z * ((Z * Z) * (Z * Z))) * (Z * Z)) * Z :=
  wired (mac_lanes (umul_bi w)) (unsadd16 15).
