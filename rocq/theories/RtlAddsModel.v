(** SystemVerilog: the older adders apcADD, muxADD, dADD, orADD, the binary units bADD, bMUL, mac and data_buf, and exp, grayCode, LSZ2. *)
Require Export Verif.RtlMacModel.
Open Scope Z_scope.

(** hw/kernel/old/apcADD/apcADD.sv:41-61 (INUM 8, LOGINUM 3); register sum; inputs (in, randNum), in listed as in[0], in[1], ... *)
Definition apc_or (x : list Z) (i j : nat) : Z := Z.lor (nth i x 0) (nth j x 0).
Definition apc_next (x : list Z) : Z :=
  let tempSum := trunc 2 (apc_or x 0 1 + apc_or x 2 3 + apc_or x 4 5) in trunc 3 (2 * tempSum + apc_or x 6 7).
Definition apcadd (sum : Z) (inp : list Z * Z) : Z * Z := let '(x, randNum) := inp in (apc_next x, b2z (sum >? randNum)).
(** hw/kernel/old/apcADD/apcADD_rng.sv:10-25 with SobolRNGDef.sv:6, which sets INWD to 8: the port connects the eight-bit output of the generator to
    the three-bit sel, which takes its low bits. *)
Definition apcadd_rng (st : (Z * Z) * Z) (x : list Z) : ((Z * Z) * Z) * Z :=
  let '(r, sum) := st in let '(r', sobolSeq) := sobol_rtl 8 r 1 in
  let '(sum', out) := apcadd sum (x, trunc 3 sobolSeq) in ((r', sum'), out).
Definition apcadd_rng_init : (Z * Z) * Z := (sobol_rtl_init, 0).

(** hw/kernel/old/muxADD/muxADD.sv:12-18; inputs (in, sel). *)
Definition muxadd (out : Z) (inp : list Z * Z) : Z * Z := let '(x, sel) := inp in (nth (Z.to_nat sel) x 0, out).
(** hw/kernel/old/muxADD/muxADD_rng.sv:10-25 with SobolRNGDef.sv:6, INWD 8 as above. *)
Definition muxadd_rng (st : (Z * Z) * Z) (x : list Z) : ((Z * Z) * Z) * Z :=
  let '(r, out) := st in let '(r', sobolSeq) := sobol_rtl 8 r 1 in
  let '(out', o) := muxadd out (x, trunc 3 sobolSeq) in ((r', out'), o).
Definition muxadd_rng_init : (Z * Z) * Z := (sobol_rtl_init, 0).
(** hw/kernel/old/dADD/dADD.sv:10-37, SobolRNGDef.sv:1 (INWD 3), muxADD.sv:12-18; registers cnt, generator, out. *)
Definition dadd (st : Z * (Z * Z) * Z) (x : list Z) : (Z * (Z * Z) * Z) * Z :=
  let '(cnt, r, out) := st in let '(r', sel) := sobol_rtl 3 r (b2z (cnt =? 1)) in
  let '(out', o) := muxadd out (x, sel) in ((trunc 3 (cnt + 1), r', out'), o).
Definition dadd_init : Z * (Z * Z) * Z := (0, sobol_rtl_init, 0).
(** hw/kernel/old/orADD/orADD.sv:10-16. *)
Definition oradd8 (out : Z) (x : list Z) : Z * Z := (b2z (existsb (Z.eqb 1) x), out).

(** hw/kernel/old/bADD/bADD.sv:10-23 and bMUL/bMUL.sv:10-23 (DATAWD 8); registers iA_buf, iB_buf, oC. The sum and the product are formed in the
    width of oC, nine and sixteen bits. *)
Definition badd (st : Z * Z * Z) (inp : Z * Z) : (Z * Z * Z) * Z :=
  let '(bufA, bufB, oC) := st in ((fst inp, snd inp, trunc 9 (bufA + bufB)), oC).
Definition bmul (st : Z * Z * Z) (inp : Z * Z) : (Z * Z * Z) * Z :=
  let '(bufA, bufB, oC) := st in ((fst inp, snd inp, trunc 16 (bufA * bufB)), oC).
Definition bin_init : Z * Z * Z := (0, 0, 0).
(** hw/kernel/old/MAC16/bMAC_SIMD/mac.sv:15-31 (MAC_BW 8, so oC has 20 bits); inputs (iA, iB, iC, acc_en). *)
Definition mac (oC : Z) (inp : Z * Z * Z * Z) : Z * Z :=
  let '(iA, iB, iC, acc_en) := inp in (trunc 20 (iA * iB + (if acc_en =? 1 then oC else iC)), oC).
(** hw/kernel/old/MAC16/bMAC_SIMD/data_buf.sv:15-31; inputs (rd_addr, wr_en, wr_addr, iData); rd_en is not used. The memory is a function of
    the address. *)
Definition data_buf (mem : Z -> Z) (inp : Z * Z * Z * Z) : (Z -> Z) * Z :=
  let '(rd_addr, wr_en, wr_addr, iData) := inp in
  ((fun a => if (wr_en =? 1) && (a =? wr_addr) then iData else mem a), mem rd_addr).
Definition data_buf_init : Z -> Z := fun _ => 0.

(** hw/kernel/old/exp/exp.sv:9-54; registers d[0], d[1], d[2]; inputs (randBit[0], randBit[1], randBit[2], in). *)
Definition exp_rtl (st : Z * Z * Z) (inp : Z * Z * Z * Z) : (Z * Z * Z) * Z :=
  let '(d0, d1, d2) := st in
  let '(r0, r1, r2, x) := inp in
  let add0 := if r0 =? 1 then 0 else x in
  let add1 := if r1 =? 1 then 1 else add0 in
  let add2 := if r0 =? 1 then 1 else x in
  let mul0 := Z.land d0 add0 in
  let mul1 := Z.land d1 add1 in
  let add3 := if r2 =? 1 then d2 else add2 in
  ((x, mul0, mul1), add3).
Definition exp_init : Z * Z * Z := (0, 0, 0).

(** hw/stream/old/GrayCode/grayCode.sv:10-22 (GWIDTH 4) and Sobol8bit/grayCode.sv (GCWD 8). *)
Definition gray_code (w : nat) (cnt : Z) (_ : unit) : Z * Z := (trunc w (cnt + 1), Z.lxor (cnt / 2) cnt).
(** hw/stream/old/SobolSeq2/LSZ2.sv:7-38 (INWIDTH 8, LOGINWIDTH 3): [lsz_outoh] is the one-hot word of LSZ.sv; out has three bits. *)
Definition lsz2 (x : Z) : Z :=
  let onehot := zsum (map (fun i => b2z (lsz_outoh x i) * p2 i) (seq 0 8)) in
  if onehot =? 0 then trunc 3 9
  else match find (fun i => onehot =? p2 i) (seq 0 8) with Some i => trunc 3 (Z.of_nat i + 1) | None => 0 end.
