(** Model of /repo/stream/gen.py. *)
From Coq Require Import String Ascii.
Require Export Verif.Base.
Open Scope Z_scope.

(** str.lower() on ASCII; used at gen.py:42, 49, 124, 131 and all over kernel/. *)
Definition lower_ascii (c : ascii) : ascii :=
  let n := nat_of_ascii c in
  if ((65 <=? n) && (n <=? 90))%nat then ascii_of_nat (n + 32) else c.
Fixpoint lower (s : string) : string :=
  match s with
  | EmptyString => EmptyString
  | String c r => String (lower_ascii c) (lower r)
  end.

Inductive rng_kind : Type := KSobol | KAsc | KDesc | KLfsr | KSys.

(** gen.py:49, 54-70: the lower-cased name must be one of eight; two names select each of
    the Sobol, ascending and descending branches. *)
Definition rng_parse (name : string) : result rng_kind :=
  let s := lower name in
  if (s =? "sobol")%string || (s =? "rc")%string then Ok KSobol
  else if (s =? "race")%string || (s =? "tc")%string then Ok KAsc
  else if (s =? "race10")%string || (s =? "tc10")%string then Ok KDesc
  else if (s =? "lfsr")%string then Ok KLfsr
  else if (s =? "sys")%string then Ok KSys
  else Err AssertionError.

(** gen.py:133, add.py:34, mul.py:47, ...: mode must be unipolar or bipolar. *)
Definition mode_parse (name : string) : result mode :=
  let s := lower name in
  if (s =? "unipolar")%string then Ok Unipolar
  else if (s =? "bipolar")%string then Ok Bipolar
  else Err AssertionError.

(** Position of the least significant zero bit (rightmost_zero in torch's SobolEngine,
    LSZ.sv in hw/stream/old/SobolRNG). *)
Fixpoint lsz_pos (p : positive) : nat :=
  match p with
  | xH => 1%nat
  | xO _ => 0%nat
  | xI q => S (lsz_pos q)
  end.
Definition lsz (n : N) : nat := match n with N0 => 0%nat | Npos p => lsz_pos p end.

(** torch.quasirandom.SobolEngine(dimr).draw(n)[:, dimr-1] (called at gen.py:58) before the division by
    2^30: point 0 is 0, point i+1 is point i xor V[rightmost zero of i].
    Same recurrence as hw/stream/old/SobolRNG/SobolRNG.sv:16-22 with cntWithEn.sv:14-19.
    [V] is the direction-number table of the requested dimension, external to /repo. *)
Fixpoint sobol_from (V : nat -> Z) (q : Z) (i : N) (n : nat) : list Z :=
  match n with
  | O => []
  | S m => q :: sobol_from V (Z.lxor q (V (lsz i))) (N.succ i) m
  end.
Definition sobol_maxbit : nat := 30.   (* SobolEngine.MAXBIT *)
Definition sobol_points (V : nat -> Z) (n : nat) : list Z := sobol_from V 0 0%N n.

(** gen.py:11-17: 2^width successive register values, most significant bit first.
    [next] is pylfsr's LFSR.next on the state, [s0] its initial state, both external. *)
Fixpoint lfsr_value (state : list Z) : Z :=
  match state with
  | [] => 0
  | b :: r => b * p2 (length r) + lfsr_value r
  end.
Fixpoint lfsr_iter (next : list Z -> list Z) (s : list Z) (n : nat) : list Z :=
  match n with
  | O => []
  | S m => lfsr_value s :: lfsr_iter next (next s) m
  end.
Definition get_lfsr_seq (width : nat) (next : list Z -> list Z) (s0 : list Z) : list Z :=
  lfsr_iter next s0 (2 ^ width).

(** What RNG takes from outside /repo. *)
Record rng_ext : Type := {
  ext_dirvec : nat -> nat -> Z;          (* Sobol direction numbers: dimension, index *)
  ext_lfsr_next : list Z -> list Z;      (* pylfsr step *)
  ext_lfsr_init : list Z;                (* pylfsr initial state *)
  ext_randperm : list Z                  (* torch.randperm(2**width) *)
}.

(** gen.py:28-71: the sequence as delivered by RNG(...)(). The float tensor is exact for width <= 24;
    division by and multiplication with seq_len are written out as in lines 58, 61, 64; line 71 floors. *)
Definition rng_seq (ext : rng_ext) (k : rng_kind) (width dimr : nat) : list Z :=
  let seq_len := inject_Z (Z.of_nat (2 ^ width)) in
  let raw : list Q :=
    match k with
    | KSobol => map (fun q => (inject_Z q / inject_Z (p2 sobol_maxbit) * seq_len)%Q)
                    (sobol_points (ext_dirvec ext dimr) (2 ^ width))
    | KAsc => map (fun x => (inject_Z x / seq_len * seq_len)%Q) (zrange (2 ^ width))
    | KDesc => rev (map (fun x => (inject_Z x / seq_len * seq_len)%Q) (zrange (2 ^ width)))
    | KLfsr => map inject_Z (get_lfsr_seq width (ext_lfsr_next ext) (ext_lfsr_init ext))
    | KSys => map inject_Z (ext_randperm ext)
    end in
  map Qfloor raw.

(** gen.py:38-71 with the name still a string. *)
Definition rng_new (ext : rng_ext) (name : string) (width dimr : nat) : result (list Z) :=
  bind (rng_parse name) (fun k => Ok (rng_seq ext k width dimr)).

(** gen.py:136-141, one element; exact rational arithmetic. *)
Definition bingen (m : mode) (width : nat) (source : Q) : Z :=
  let b := match m with
           | Unipolar => source
           | Bipolar => ((source + 1) / 2)%Q
           end in
  qround (b * inject_Z (p2 width))%Q.

(** gen.py:164-166: the sequence length must be a power of two (log2 taken exactly; log2(0) is a
    ValueError in Python). Returns the width. *)
Definition bsgen_new (rng : list Z) : result Z :=
  if zlen rng =? 0 then Err ValueError
  else let w := Z.log2 (zlen rng) in
       if zlen rng =? 2 ^ w then Ok w else Err AssertionError.

(** gen.py:175, one lane. The index is in range because it is reduced modulo the length. *)
Definition bsgen_bit (binary : Z) (rng : list Z) (cycle : Z) : Z :=
  b2z (binary >? nthZ rng (cycle mod zlen rng)).

(** The stream seen by a caller that passes cycle = start, start+1, ... *)
Definition bsgen_stream (binary : Z) (rng : list Z) (start : Z) (n : nat) : list Z :=
  map (fun k => bsgen_bit binary rng (start + Z.of_nat k)) (seq 0 n).

(** torch.quantile(raw, q) (gen.py:100-101, utils.py:216-224): linear interpolation at q*(n-1) in the
    sorted data; sorting modelled by insertion sort. Non-empty data only (torch raises on empty). *)
Fixpoint qinsert (x : Q) (l : list Q) : list Q :=
  match l with
  | [] => [x]
  | y :: r => if Qle_bool x y then x :: y :: r else y :: qinsert x r
  end.
Definition qsort (l : list Q) : list Q := fold_right qinsert [] l.
Definition quantile (raw : list Q) (q : Q) : Q :=
  let s := qsort raw in
  let pos := (q * inject_Z (zlen raw - 1))%Q in
  let lo := nth (Z.to_nat (Qfloor pos)) s 0%Q in
  let hi := nth (Z.to_nat (Qceiling pos)) s 0%Q in
  (lo + (pos - inject_Z (Qfloor pos)) * (hi - lo))%Q.

(** gen.py:92-104. [None]: scale is 0, the division yields nan/inf in torch. *)
Definition rawscale_new (q : Q) : result Q :=
  if (qgt q 0 && Qle_bool q 1)%bool then Ok q else Err AssertionError.
Definition rawscale (q : Q) (raw : list Q) : option (list Q) :=
  let lower_bound := quantile raw ((1#2) - q / 2)%Q in
  let upper_bound := quantile raw ((1#2) + q / 2)%Q in
  let scale := qmax (Qabs lower_bound) (Qabs upper_bound) in
  if Qeq_bool scale 0 then None
  else Some (map (fun x => (qclamp lower_bound upper_bound x / scale)%Q) raw).
