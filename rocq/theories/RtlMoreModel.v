(** Further SystemVerilog modules under /repo/hw, with the conventions of RtlModel.v. *)
Require Export Verif.RtlModel.
Open Scope Z_scope.

(** The up/down counter shared by the modules of hw/kernel/div and hw/kernel/sqrt below: at the clock edge one up on
    [inc & ~dec & ~cntFull], one down on [~inc & dec & ~cntEmpty]. GDIV_U.sv:19-34, GDIV_B.sv:24-39, GSQRT_U.sv:19-34,
    GSQRT_B.sv:19-34 (the text is the same in the four files); DEP = S d; reset to 2^d. *)
Definition gcnt_init (d : nat) : Z := p2 d.
Definition gcnt (d : nat) (cnt inc dec : Z) : Z :=
  let cntFull := red_and (S d) cnt in
  let cntEmpty := negb (red_or cnt) in
  if (inc =? 1) && negb (dec =? 1) && negb cntFull then trunc (S d) (cnt + 1)
  else if negb (inc =? 1) && (dec =? 1) && negb cntEmpty then trunc (S d) (cnt - 1)
  else cnt.

(** hw/kernel/div/GDIV_U.sv:12-39; inputs (randNum, dividend, divisor). *)
Definition gdiv_u (d : nat) (cnt : Z) (inp : Z * Z * Z) : Z * Z :=
  let '(randNum, dividend, divisor) := inp in
  let quotient := b2z (cnt >? randNum) in
  (gcnt d cnt dividend (Z.land quotient divisor), quotient).

(** hw/kernel/div/GDIV_B.sv:12-59; registers (cnt, divisor_d). *)
Definition gdiv_b_init (d : nat) : Z * Z := (gcnt_init d, 0).
Definition gdiv_b (d : nat) (st : Z * Z) (inp : Z * Z * Z) : (Z * Z) * Z :=
  let '(cnt, divisor_d) := st in
  let '(randNum, dividend, divisor) := inp in
  let quotient := b2z (cnt >? randNum) in
  let xnor0 := bnot (Z.lxor divisor divisor_d) in
  let xnor1 := bnot (Z.lxor divisor dividend) in
  let xnor2 := bnot (Z.lxor xnor0 (bnot quotient)) in
  let inc := Z.land xnor1 xnor2 in
  let dec := Z.land (bnot xnor1) (bnot xnor2) in
  ((gcnt d cnt inc dec, divisor), quotient).

(** hw/kernel/sqrt/GSQRT_U.sv:11-47; registers (cnt, out_d1); inputs (randNum, in). *)
Definition gsqrt_init (d : nat) : Z * Z := (gcnt_init d, 0).
Definition gsqrt_u (d : nat) (st : Z * Z) (inp : Z * Z) : (Z * Z) * Z :=
  let '(cnt, out_d1) := st in
  let '(randNum, x) := inp in
  let out := b2z (cnt >? randNum) in
  ((gcnt d cnt x (Z.land out out_d1), out), out).
(** hw/kernel/sqrt/GSQRT_B.sv:11-47. *)
Definition gsqrt_b (d : nat) (st : Z * Z) (inp : Z * Z) : (Z * Z) * Z :=
  let '(cnt, out_d1) := st in
  let '(randNum, x) := inp in
  let out := b2z (cnt >? randNum) in
  ((gcnt d cnt x (bnot (Z.lxor out out_d1)), out), out).

(** hw/kernel/old/gMUL_uni/gMUL_uni.sv:14-59; registers (iA_buf, iB_buf, rngs); inputs (iA, iB, loadA, loadB). *)
Definition mul_regs : Type := (Z * Z) * ((Z * Z) * (Z * Z)).
Definition mul_in : Type := Z * Z * Z * Z.
Definition gmul_init : mul_regs := ((0, 0), (sobol_rtl_init, sobol_rtl_init)).
Definition mul_load (load i buf : Z) : Z := if load =? 1 then i else buf.
Definition gmul_uni (w : nat) (st : mul_regs) (inp : mul_in) : mul_regs * Z :=
  let '((bufA, bufB), (rA, rB)) := st in
  let '(iA, iB, loadA, loadB) := inp in
  let '(rA', sobolSeqA) := sobol_rtl w rA 1 in
  let '(rB', sobolSeqB) := sobol_rtl w rB 1 in
  (((mul_load loadA iA bufA, mul_load loadB iB bufB), (rA', rB')),
   Z.land (b2z (bufA >? sobolSeqA)) (b2z (bufB >? sobolSeqB))).
(** hw/kernel/old/gMUL_bi/gMUL_bi.sv:14-59. *)
Definition gmul_bi (w : nat) (st : mul_regs) (inp : mul_in) : mul_regs * Z :=
  let '((bufA, bufB), (rA, rB)) := st in
  let '(iA, iB, loadA, loadB) := inp in
  let '(rA', sobolSeqA) := sobol_rtl w rA 1 in
  let '(rB', sobolSeqB) := sobol_rtl w rB 1 in
  (((mul_load loadA iA bufA, mul_load loadB iB bufB), (rA', rB')),
   bnot (Z.lxor (b2z (bufA >? sobolSeqA)) (b2z (bufB >? sobolSeqB)))).

(** hw/kernel/old/dMUL_uni/dMUL_uni.sv:14-77; registers (cntA, cntB) and those of gMUL_uni. *)
Definition dmul_init : (Z * Z) * mul_regs := ((0, 0), gmul_init).
Definition dmul_uni (w : nat) (st : (Z * Z) * mul_regs) (inp : mul_in) : ((Z * Z) * mul_regs) * Z :=
  let '((cntA, cntB), ((bufA, bufB), (rA, rB))) := st in
  let '(iA, iB, loadA, loadB) := inp in
  let '(rA', sobolSeqA) := sobol_rtl w rA 1 in
  let '(rB', sobolSeqB) := sobol_rtl w rB (b2z (red_and w cntB)) in
  (((trunc w (cntA + 1), trunc w (cntB + b2z (red_and w cntA))),
    ((mul_load loadA iA bufA, mul_load loadB iB bufB), (rA', rB'))),
   Z.land (b2z (bufA >? sobolSeqA)) (b2z (bufB >? sobolSeqB))).
(** hw/kernel/old/dMUL_bi/dMUL_bi.sv:14-77. *)
Definition dmul_bi (w : nat) (st : (Z * Z) * mul_regs) (inp : mul_in) : ((Z * Z) * mul_regs) * Z :=
  let '((cntA, cntB), ((bufA, bufB), (rA, rB))) := st in
  let '(iA, iB, loadA, loadB) := inp in
  let '(rA', sobolSeqA) := sobol_rtl w rA 1 in
  let '(rB', sobolSeqB) := sobol_rtl w rB (b2z (red_and w cntB)) in
  (((trunc w (cntA + 1), trunc w (cntB + b2z (red_and w cntA))),
    ((mul_load loadA iA bufA, mul_load loadB iB bufB), (rA', rB'))),
   bnot (Z.lxor (b2z (bufA >? sobolSeqA)) (b2z (bufB >? sobolSeqB)))).

(** hw/kernel/old/tMUL_uni/tMUL_uni.sv:15-60; registers (iA_buf, stop, iB_buf, rng); outputs (oC, stop). *)
Definition tmul_regs : Type := (Z * Z * Z) * (Z * Z).
Definition tmul_init : tmul_regs := ((0, 1, 0), sobol_rtl_init).
Definition tmul_count (w : nat) (bufA loadA iA : Z) : Z * Z :=
  if loadA =? 1 then (iA, 1)
  else if negb (bufA =? 0) then (trunc w (bufA - 1), 0) else (bufA, 1).
Definition tmul_uni (w : nat) (st : tmul_regs) (inp : mul_in) : tmul_regs * (Z * Z) :=
  let '((bufA, stop, bufB), r) := st in
  let '(iA, iB, loadA, loadB) := inp in
  let '(r', sobolSeq) := sobol_rtl w r (bnot stop) in
  let '(bufA', stop') := tmul_count w bufA loadA iA in
  (((bufA', stop', mul_load loadB iB bufB), r'),
   (Z.land (bnot stop) (b2z (bufB >? sobolSeq)), stop)).
(** hw/kernel/old/tMUL_bi/tMUL_bi.sv:15-60. *)
Definition tmul_bi (w : nat) (st : tmul_regs) (inp : mul_in) : tmul_regs * (Z * Z) :=
  let '((bufA, stop, bufB), r) := st in
  let '(iA, iB, loadA, loadB) := inp in
  let '(r', sobolSeq) := sobol_rtl w r (bnot stop) in
  let '(bufA', stop') := tmul_count w bufA loadA iA in
  (((bufA', stop', mul_load loadB iB bufB), r'),
   (bnot (Z.lxor (bnot stop) (b2z (bufB >? sobolSeq))), stop)).

(** hw/kernel/old/uNSADD/uNSADD8.sv:11-54 and uNSADD16.sv:11-54 with OFFSET 15, and
    hw/kernel/old/MAC16/uMAC_uni_nonscaled/uNSADD16.sv:11-54 with OFFSET 0: registers (theoryOneBuf, actualOneBuf) of
    ten bits; the literal OFFSET makes the sums 32 bits wide before they are truncated. *)
Definition unsadd_init : Z * Z := (0, 0).
Definition unsadd_acc (offset : Z) (st : Z * Z) (tempSum : Z) : (Z * Z) * Z :=
  let '(theory, actual) := st in
  let out := b2z (theory >? actual) in
  ((trunc 10 (theory + 2 * tempSum - offset), trunc 10 (actual + 2 * out)), out).
Definition unsadd8 (offset : Z) (st : Z * Z) (x : list Z) : (Z * Z) * Z :=
  unsadd_acc offset st (trunc 4 (parallelcnt7 (firstn 7 x) + bitn x 7)).
Definition unsadd16 (offset : Z) (st : Z * Z) (x : list Z) : (Z * Z) * Z :=
  unsadd_acc offset st (trunc 5 (parallelcnt15 (firstn 15 x) + bitn x 15)).

(** hw/kernel/div/CORDIV_kernel_IS_U.sv:15-47; registers (dividend_cnt, divisor_cnt, kernel); inputs (randNum,
    randNumKernel, dividend, divisor). *)
Definition cordiv_is_init (dep : nat) : (Z * Z) * list Z := ((0, 0), cordiv_rtl_init dep).
Definition is_count (bw : nat) (cnt x : Z) : Z := if x =? 1 then trunc bw (cnt + 1) else trunc bw (cnt - 1).
Definition cordiv_is_u (bw : nat) (st : (Z * Z) * list Z) (inp : Z * Z * Z * Z) : ((Z * Z) * list Z) * Z :=
  let '((ca, cb), sr) := st in
  let '(randNum, randNumKernel, dividend, divisor) := inp in
  let dividend_regen := b2z (ca >? randNum) in
  let divisor_regen := b2z (cb >? randNum) in
  let '(sr', quotient) := cordiv_rtl sr (randNumKernel, dividend_regen, divisor_regen) in
  (((is_count bw ca dividend, is_count bw cb divisor), sr'), quotient).
(** hw/kernel/div/CORDIV_kernel_IS_B.sv:15-62; BW = S b. *)
Definition is_sign (b : nat) (cnt : Z) : Z := bnot (bsel cnt b).
Definition is_abs (b : nat) (cnt : Z) : Z := if is_sign b cnt =? 1 then trunc (S b) (0 - cnt) else cnt.
Definition cordiv_is_b (b : nat) (st : (Z * Z) * list Z) (inp : Z * Z * Z * Z) : ((Z * Z) * list Z) * Z :=
  let '((ca, cb), sr) := st in
  let '(randNum, randNumKernel, dividend, divisor) := inp in
  let dividend_regen := b2z (is_abs b ca >? randNum) in
  let divisor_regen := b2z (is_abs b cb >? randNum) in
  let '(sr', quotient_uni) := cordiv_rtl sr (randNumKernel, dividend_regen, divisor_regen) in
  (((is_count (S b) ca dividend, is_count (S b) cb divisor), sr'),
   Z.lxor (Z.lxor quotient_uni (is_sign b ca)) (is_sign b cb)).

(** hw/kernel/sqrt/BISQRT_S_IS_U.sv:14-60; registers (dff, out, kernel); inputs (randNum, in); the output is the register. *)
Definition bisqrt_is_u_init (dep : nat) : (Z * Z) * list Z := ((0, 0), cordiv_rtl_init dep).
Definition bisqrt_is_u (st : (Z * Z) * list Z) (inp : Z * Z) : ((Z * Z) * list Z) * Z :=
  let '((dff, out), sr) := st in
  let '(randNum, x) := inp in
  let dividend := Z.land (bnot dff) out in
  let divisor := Z.lor dff dividend in
  let '(sr', quotient) := cordiv_rtl sr (randNum, dividend, divisor) in
  (((bnot dff, if quotient =? 1 then 1 else x), sr'), out).
(** hw/kernel/sqrt/BISQRT_S_IS_B.sv:14-65; registers (dff, Bi2Uni with DEP 3, kernel). *)
Definition bisqrt_is_b_init (dep : nat) : (Z * Z) * list Z := ((0, bi2uni_rtl_init 2), cordiv_rtl_init dep).
Definition bisqrt_is_b (st : (Z * Z) * list Z) (inp : Z * Z) : ((Z * Z) * list Z) * Z :=
  let '((dff, acc), sr) := st in
  let '(randNum, x) := inp in
  let '(acc', outUni) := bi2uni_rtl 2 acc x in
  let dividend := Z.land (bnot dff) outUni in
  let divisor := Z.lor dff dividend in
  let '(sr', quotient) := cordiv_rtl sr (randNum, dividend, divisor) in
  (((bnot dff, acc'), sr'), if quotient =? 1 then 1 else x).

(** hw/kernel/div/ISCBDIV_B.sv:20-89; DEP_ABS = S d; registers (Abs, Abs, Bi2Uni, Bi2Uni, ISCBDIV_U, Uni2Bi); inputs
    (randNum, dividend, divisor). *)
Definition iscbdiv_b_regs : Type := (Z * Z) * (Z * Z) * (Z * list Z) * Z.
Definition iscbdiv_b_init (d dep : nat) : iscbdiv_b_regs :=
  ((abs_rtl_init d, abs_rtl_init d), (bi2uni_rtl_init 2, bi2uni_rtl_init 2), iscbdiv_u_init dep, uni2bi_rtl_init).
Definition iscbdiv_b (d dep_sync : nat) (st : iscbdiv_b_regs) (inp : Z * Z * Z) : iscbdiv_b_regs * Z :=
  let '((a1, a2), (u1, u2), dv, ub) := st in
  let '(randNum, dividend, divisor) := inp in
  let '(a1', (dividend_sign, dividend_abs)) := abs_rtl d a1 dividend in
  let '(a2', (divisor_sign, divisor_abs)) := abs_rtl d a2 divisor in
  let '(u1', dividend_abs_uni) := bi2uni_rtl 2 u1 dividend_abs in
  let '(u2', divisor_abs_uni) := bi2uni_rtl 2 u2 divisor_abs in
  let '(dv', quotient_abs_uni) := iscbdiv_u dep_sync dv (randNum, dividend_abs_uni, divisor_abs_uni) in
  let '(ub', quotient_abs) := uni2bi_rtl ub quotient_abs_uni in
  (((a1', a2'), (u1', u2'), dv', ub'), Z.lxor (Z.lxor quotient_abs dividend_sign) divisor_sign).

(** hw/kernel/old/relu/relu.sv:7-36; DEPTH = S d. The reset value {1,{(DEPTH-1){1'b0}}} (an unsized literal in a
    concatenation) is taken as 2^(DEPTH-1). The second branch of the counter needs [~|cnt]. *)
Definition relu_rtl_init (d : nat) : Z := p2 d.
Definition relu_rtl (d : nat) (cnt : Z) (x : Z) : Z * Z :=
  let inc := x in
  let dec := bnot x in
  let cnt' := if (inc =? 1) && negb (dec =? 1) && negb (red_and (S (S d)) cnt) then trunc (S (S d)) (cnt + 1)
              else if negb (inc =? 1) && (dec =? 1) && negb (red_or cnt) then trunc (S (S d)) (cnt - 1)
              else cnt in
  (cnt', if bsel cnt d =? 1 then x else 0).

(** hw/kernel/old/sqrt/sqrt.sv:9-42: six bits; registers (cnt, out_d1); inputs (randNum, in); the same second branch. *)
Definition sqrt_old_init : Z * Z := (32, 0).
Definition sqrt_old (st : Z * Z) (inp : Z * Z) : (Z * Z) * Z :=
  let '(cnt, out_d1) := st in
  let '(randNum, x) := inp in
  let out := b2z (cnt >=? randNum) in
  let inc := x in
  let dec := Z.land out out_d1 in
  let cnt' := if (inc =? 1) && negb (dec =? 1) && negb (red_and 6 cnt) then trunc 6 (cnt + 1)
              else if negb (inc =? 1) && (dec =? 1) && negb (red_or cnt) then trunc 6 (cnt - 1)
              else cnt in
  ((cnt', out), out).

(** hw/stream/shuffle_int/SkewedSyncInt.sv:14-53; DEP = S d; {{DEP-1}{1'b1}} is DEP-1 ones. *)
Definition skewedsyncint_rtl_init : Z := 0.
Definition skewedsyncint_rtl (d : nat) (cnt : Z) (inp : Z * Z) : Z * (Z * Z) :=
  let '(in0, in1) := inp in
  let sum := trunc (S (S d)) (cnt + in0) in
  let sum_clip := if bsel sum (S d) =? 1 then p2 d - 1 else trunc (S d) sum in
  let out0 := if in1 =? 1 then sum_clip else 0 in
  let sum_res := trunc (S (S d)) (sum - out0) in
  let sum_res_clip := if bsel sum_res (S d) =? 1 then p2 d - 1 else trunc (S d) sum in
  (sum_res_clip, (out0, in1)).

(** hw/stream/old/HaltonSeq2/ModCnt2.sv:11-27, HaltonSeq3/ModCnt3.sv, HaltonSeq5/ModCnt5.sv (the same text; BASE = b): one
    digit; [cin] comes in, (next count, cout). *)
Definition modcnt (b cnt cin : Z) : Z * Z :=
  let cntmax := b2z (cnt =? b - 1) in
  let cout := Z.land cntmax cin in
  (if cout =? 1 then b2z (cnt =? 0) else cnt + cin, cout).
(** HaltonSeq2.sv:12-35, HaltonSeq3.sv:26-46, HaltonSeq5.sv:25-45: the chain of digits, digit 0 first, cin[0] = 1. *)
Fixpoint halton_chain (b cin : Z) (ds : list Z) : list Z :=
  match ds with
  | [] => []
  | c :: r => let '(c', cout) := modcnt b c cin in c' :: halton_chain b cout r
  end.
(** The weighted sum of the digits, the first digit with the largest weight: HaltonSeq2.sv:37-43 (bit i of the output is
    digit SEQWIDTH-1-i), HaltonSeq3.sv:48-54, HaltonSeq5.sv:47-51. *)
Fixpoint halton_value (b : Z) (ds : list Z) : Z :=
  match ds with [] => 0 | c :: r => c * b ^ zlen r + halton_value b r end.
(** HaltonSeq2: the output is combinational. HaltonSeq3 and HaltonSeq5: it is a register of [wd] bits. *)
Definition halton2_rtl_init (n : nat) : list Z := repeat 0 n.
Definition halton2_rtl (ds : list Z) (_ : unit) : list Z * Z := (halton_chain 2 1 ds, halton_value 2 ds).
Definition halton_rtl_init (n : nat) : list Z * Z := (repeat 0 n, 0).
Definition halton_rtl (b : Z) (wd : nat) (st : list Z * Z) (_ : unit) : (list Z * Z) * Z :=
  let '(ds, out) := st in ((halton_chain b 1 ds, trunc wd (halton_value b ds)), out).
