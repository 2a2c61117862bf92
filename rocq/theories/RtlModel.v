(** Models of SystemVerilog modules under /repo/hw. A module is a step function from its registers and
    the inputs of one clock period to the registers after the clock edge and the outputs during the
    period (combinational outputs are read before the edge). Registers of N bits are integers in [0, 2^N), bits are
    0/1; asynchronous reset is the [_init] value and is only applied at the start. Four-state values
    (x, z) and timing are not modelled. *)
Require Export Verif.Base.
Open Scope Z_scope.

(** Truncation to an N-bit register, selection of bit i, one-bit complement. *)
Definition trunc (n : nat) (x : Z) : Z := x mod p2 n.
Definition bsel (x : Z) (i : nat) : Z := (x / p2 i) mod 2.
Definition bnot (b : Z) : Z := 1 - b.
(** Reduction operators &x and |x of an N-bit register. *)
Definition red_and (n : nat) (x : Z) : bool := x =? p2 n - 1.
Definition red_or (x : Z) : bool := negb (x =? 0).

(** hw/stream/shuffle/SkewedSync.sv:12-52. *)
Definition skewedsync_rtl_init : Z := 0.
Definition skewedsync_rtl (dep : nat) (cnt : Z) (inp : Z * Z) : Z * (Z * Z) :=
  let '(in0, in1) := inp in
  let cntFull := red_and dep cnt in
  let cntEmpty := negb (red_or cnt) in
  let in_ne := Z.lxor in0 in1 =? 1 in
  let cnt' := if in_ne then
                if (if in0 =? 1 then cntFull else cntEmpty) then cnt
                else trunc dep (cnt + (if in0 =? 1 then 1 else -1))
              else cnt in
  let out0 := if in_ne then
                if in0 =? 1 then (if cntFull then 1 else 0) else (if cntEmpty then 0 else 1)
              else in0 in
  (cnt', (out0, in1)).

(** hw/kernel/abs/Abs.sv:11-33; DEP = S d (the same counter as hw/kernel/sign/Sign.sv:10-31). *)
Definition abs_rtl_init (d : nat) : Z := p2 d.
Definition abs_rtl (d : nat) (cnt : Z) (value : Z) : Z * (Z * Z) :=
  let cntFull := red_and (S d) cnt in
  let cntEmpty := negb (red_or cnt) in
  let cnt' := if (value =? 1) && negb cntFull then trunc (S d) (cnt + 1)
              else if (value =? 0) && negb cntEmpty then trunc (S d) (cnt - 1)
              else cnt in
  let sign := bnot (bsel cnt d) in
  (cnt', (sign, Z.lxor value sign)).
(** hw/kernel/sign/Sign.sv:10-31. *)
Definition sign_rtl (d : nat) (cnt : Z) (value : Z) : Z * Z :=
  let '(cnt', (sign, _)) := abs_rtl d cnt value in (cnt', sign).

(** hw/kernel/jkff/JKFF.sv:9-21: the output is the register itself. *)
Definition jkff_rtl_init : Z := 0.
Definition jkff_rtl (out : Z) (inp : Z * Z) : Z * Z :=
  let '(J, K) := inp in
  let out' := if J =? 0 then (if K =? 0 then out else 0)
              else (if K =? 0 then 1 else bnot out) in
  (out', out).

(** hw/kernel/div/CORDIV_kernel.sv:13-35; [sr] is the register with index 0 first. *)
Definition cordiv_rtl_init (dep : nat) : list Z := map (fun i => Z.of_nat i mod 2) (seq 0 dep).
Definition cordiv_rtl (sr : list Z) (inp : Z * Z * Z) : list Z * Z :=
  let '(randNum, dividend, divisor) := inp in
  let quotient := if divisor =? 1 then dividend else nthZ sr randNum in
  (tl sr ++ [quotient], quotient).

(** hw/kernel/div/ISCBDIV_U.sv:20-41. *)
Definition iscbdiv_u_init (dep : nat) : Z * list Z := (skewedsync_rtl_init, cordiv_rtl_init dep).
Definition iscbdiv_u (dep_sync : nat) (st : Z * list Z) (inp : Z * Z * Z) : (Z * list Z) * Z :=
  let '(cnt, sr) := st in
  let '(randNum, dividend, divisor) := inp in
  let '(cnt', (dividend_sync, divisor_sync)) := skewedsync_rtl dep_sync cnt (dividend, divisor) in
  let '(sr', quotient) := cordiv_rtl sr (randNum, dividend_sync, divisor_sync) in
  ((cnt', sr'), quotient).

(** hw/stream/shuffle/Bi2Uni.sv:11-25; DEP = S d. *)
Definition bi2uni_rtl_init (d : nat) : Z := p2 d.
Definition bi2uni_rtl (d : nat) (diff_acc : Z) (inp : Z) : Z * Z :=
  let pc := 2 * inp in
  let out := Z.land (bsel diff_acc d) (b2z (red_or (trunc d diff_acc))) in
  (trunc (S d) (diff_acc + pc - 1 - out), out).

(** hw/stream/shuffle/Uni2Bi.sv:9-23. *)
Definition uni2bi_rtl_init : Z := 0.
Definition uni2bi_rtl (in_acc : Z) (inp : Z) : Z * Z :=
  let pc := trunc 2 (inp + 1) in
  (trunc 2 (bsel in_acc 0 + pc), bsel in_acc 1).

(** hw/kernel/sqrt/BISQRT_S_JK_U.sv:10-33: the only register is the JK flip-flop. *)
Definition bisqrt_jk_u (jk : Z) (inp : Z) : Z * Z :=
  let sel := jk in
  let out := if sel =? 1 then 1 else inp in
  (fst (jkff_rtl jk (out, 1)), out).

(** hw/kernel/sqrt/BISQRT_S_JK_B.sv:13-46; DEP = S d; registers (JKFF, Bi2Uni). *)
Definition bisqrt_jk_b_init (d : nat) : Z * Z := (jkff_rtl_init, bi2uni_rtl_init d).
Definition bisqrt_jk_b (d : nat) (st : Z * Z) (inp : Z) : (Z * Z) * Z :=
  let '(jk, acc) := st in
  let out := if jk =? 1 then 1 else inp in
  let '(acc', outUni) := bi2uni_rtl d acc inp in
  ((fst (jkff_rtl jk (outUni, 1)), acc'), out).

(** hw/stream/old/SobolRNG/LSZ.sv:8-25: the gates. *)
Fixpoint lsz_inacc (x : Z) (i : nat) : bool :=
  match i with
  | O => negb (Z.testbit x 0)
  | S j => lsz_inacc x j || negb (Z.testbit x (Z.of_nat i))
  end.
Definition lsz_outoh (x : Z) (i : nat) : bool :=
  match i with
  | O => lsz_inacc x 0
  | S j => xorb (lsz_inacc x j) (lsz_inacc x i)
  end.
(** LSZ.sv:27-141: the case statements, for every width at once: one-hot word to index, default 0. *)
Definition lsz_rtl (w : nat) (x : Z) : nat :=
  let word := zsum (map (fun i => b2z (lsz_outoh x i) * p2 i) (seq 0 w)) in
  match find (fun i => word =? p2 i) (seq 0 w) with Some i => i | None => 0%nat end.

(** hw/stream/old/SobolRNG/SobolRNGDim1.sv:30-121: dirVec[i] = 2^(INWD-1-i). *)
Definition dirvec_dim1 (w : nat) (i : nat) : Z := p2 (w - 1 - i).
(** cntWithEn.sv:12-18, SobolRNG.sv:12-22, SobolRNGDim1.sv:18-28, 123-130: registers (cnt, out); CNTWD = INWD = w. *)
Definition sobol_rtl_init : Z * Z := (0, 0).
Definition sobol_rtl (w : nat) (st : Z * Z) (enable : Z) : (Z * Z) * Z :=
  let '(cnt, out) := st in
  let vecIdx := lsz_rtl w cnt in
  let out' := if enable =? 1 then Z.lxor out (dirvec_dim1 w vecIdx) else out in
  ((trunc w (cnt + enable), out'), out).

(** hw/kernel/old/uMUL_uni/uMUL_uni.sv:13-37; inputs (iA, iB, loadB). *)
Definition umul_uni_init : Z * (Z * Z) := (0, sobol_rtl_init).
Definition umul_uni (w : nat) (st : Z * (Z * Z)) (inp : Z * Z * Z) : (Z * (Z * Z)) * Z :=
  let '(buf, rng) := st in
  let '(iA, iB, loadB) := inp in
  let '(rng', sobolSeq) := sobol_rtl w rng iA in
  ((if loadB =? 1 then iB else buf, rng'), Z.land iA (b2z (buf >? sobolSeq))).

(** hw/kernel/old/uMUL_bi/uMUL_bi.sv:13-45. *)
Definition umul_bi_init : Z * ((Z * Z) * (Z * Z)) := (0, (sobol_rtl_init, sobol_rtl_init)).
Definition umul_bi (w : nat) (st : Z * ((Z * Z) * (Z * Z))) (inp : Z * Z * Z)
  : (Z * ((Z * Z) * (Z * Z))) * Z :=
  let '(buf, (rng, rev)) := st in
  let '(iA, iB, loadB) := inp in
  let '(rng', sobolSeq) := sobol_rtl w rng iA in
  let '(rev', sobolSeq_reverse) := sobol_rtl w rev (bnot iA) in
  ((if loadB =? 1 then iB else buf, (rng', rev')),
   Z.lor (Z.land iA (b2z (buf >? sobolSeq))) (Z.land (bnot iA) (b2z (buf <=? sobolSeq_reverse)))).

(** hw/kernel/old/uSADD/parallelCnt7.sv:5-12; [x] lists in[0], in[1], ... *)
Definition bitn (x : list Z) (i : nat) : Z := nth i x 0.
Definition parallelcnt7 (x : list Z) : Z :=
  let t0 := trunc 2 (bitn x 0 + bitn x 1 + bitn x 2) in
  let t1 := trunc 2 (bitn x 3 + bitn x 4 + bitn x 5) in
  let t2 := trunc 2 (bitn x 6 + bsel t0 0 + bsel t1 0) in
  let t3 := trunc 2 (bsel t0 1 + bsel t1 1 + bsel t2 1) in
  2 * t3 + bsel t2 0.
(** hw/kernel/old/uSADD/parallelCnt15.sv:8-25. *)
Definition parallelcnt15 (x : list Z) : Z :=
  let s0 := parallelcnt7 (firstn 7 x) in
  let s1 := parallelcnt7 (firstn 7 (skipn 7 x)) in
  let t0 := trunc 2 (bitn x 14 + bsel s0 0 + bsel s1 0) in
  let t1 := trunc 2 (bsel t0 1 + bsel s0 1 + bsel s1 1) in
  let t2 := trunc 2 (bsel t1 1 + bsel s0 2 + bsel s1 2) in
  4 * t2 + 2 * bsel t1 0 + bsel t0 0.

(** hw/kernel/old/uSADD/uSADD8.sv:10-32 (n = 3) and uSADD16.sv:10-32 (n = 4): the accumulator after the
    parallel counter. *)
Definition usadd_init : Z := 0.
Definition usadd_acc (n : nat) (accBuf tempSum : Z) : Z * Z :=
  let accumulation := trunc (S n) (accBuf + trunc n tempSum) in
  (trunc n accumulation,
   if bsel tempSum n =? 1 then bsel tempSum n else bsel accumulation n).
Definition usadd8 (accBuf : Z) (x : list Z) : Z * Z :=
  usadd_acc 3 accBuf (trunc 4 (parallelcnt7 (firstn 7 x) + bitn x 7)).
Definition usadd16 (accBuf : Z) (x : list Z) : Z * Z :=
  usadd_acc 4 accBuf (trunc 5 (parallelcnt15 (firstn 15 x) + bitn x 15)).

(** hw/kernel/old/MAC16/uMAC_uni_scaled/uMAC_uni_scaled.sv:12-33. SobolRNGDim1_8b.sv declares the port sobolSeq
    with one bit and again with eight; it is taken as eight bits. Sixteen multipliers (its own copy of
    uMUL_uni is the 8-bit one) and uSADD16; inputs (iA[0..15], iB[0..15], loadB). *)
Definition umac_uni_init : list (Z * (Z * Z)) * Z := (repeat umul_uni_init 16, usadd_init).
Definition umac_uni (w : nat) (st : list (Z * (Z * Z)) * Z) (inp : list Z * list Z * Z)
  : (list (Z * (Z * Z)) * Z) * Z :=
  let '(muls, acc) := st in
  let '(iA, iB, loadB) := inp in
  let rs := map2 (fun m ab => umul_uni w m (fst ab, snd ab, loadB)) muls (combine iA iB) in
  let '(acc', oC) := usadd16 acc (map snd rs) in
  ((map fst rs, acc'), oC).
