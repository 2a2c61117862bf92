(** Models of the small streaming kernels, one lane:
    /repo/kernel/{shiftreg,jkff,mul,relu,signabs}.py. *)
Require Export Verif.Base Verif.GenModel.
Open Scope Z_scope.

(** ** ShiftReg *)

(** shiftreg.py:26, 33-34: fill value i%2 at position i. *)
Definition shiftreg_init (entry : nat) : list Z := map (fun x => x mod 2) (zrange entry).

(** torch.roll(sr, -1, 0) on one lane. *)
Definition roll_m1 (l : list Z) : list Z := match l with [] => [] | x :: r => r ++ [x] end.

(** sr[entry-1] = v. *)
Fixpoint set_last (l : list Z) (v : Z) : list Z :=
  match l with
  | [] => []
  | [_] => [v]
  | x :: r => x :: set_last r v
  end.

(** shiftreg.py:38-53; [mask] is this lane of the mask tensor if one is passed. Requires
    0 <= index < entry (otherwise torch raises; all callers satisfy it). *)
Definition shiftreg_step (sr : list Z) (inp : Z * option Z * Z) : list Z * (Z * Z) :=
  let '(input, mask, index) := inp in
  let out := nthZ sr index in
  let cnt := zsum sr in
  let sr_shift := set_last (roll_m1 sr) input in
  let sr' := match mask with
             | None => sr_shift
             | Some m => map2 (fun a b => m * a + (1 - m) * b) sr_shift sr
             end in
  (sr', (out, cnt)).

(** ** JKFF *)

Definition jkff_init : Z := 0.  (* jkff.py:17 *)

(** jkff.py:19-31. *)
Definition jkff_step (q : Z) (inp : Z * Z) : Z * Z :=
  let '(J, K) := inp in
  let j0 := b2z (J =? 0) in
  let j1 := 1 - j0 in
  let k0 := b2z (K =? 0) in
  let k1 := 1 - k0 in
  let j0k0 := Z.land j0 k0 in
  let j1k0 := Z.land j1 k0 in
  let j0k1 := Z.land j0 k1 in
  let j1k1 := Z.land j1 k1 in
  let q' := j0k0 * q + j1k0 * 1 + j0k1 * 0 + j1k1 * (1 - q) in
  (q', q').

(** ** FSUMul *)

(** mul.py:62, 67: rng_idx and rng_idx_inv. *)
Definition fsumul_static_init : Z * Z := (0, 0).

(** mul.py:79-92 (static), [binary] = BinGen(in_1_prob), [rng] = RNG sequence. In unipolar mode there is no
    second index; it is kept unchanged here. *)
Definition fsumul_static_step (m : mode) (binary : Z) (rng : list Z) (st : Z * Z) (in_0 : Z)
  : (Z * Z) * Z :=
  let '(rng_idx, rng_idx_inv) := st in
  let path := Z.land in_0 (bsgen_bit binary rng rng_idx) in
  let rng_idx' := rng_idx + in_0 in
  match m with
  | Unipolar => ((rng_idx', rng_idx_inv), path)
  | Bipolar =>
      let path_inv := Z.land (1 - in_0) (1 - bsgen_bit binary rng rng_idx_inv) in
      let rng_idx_inv' := rng_idx_inv + (1 - in_0) in
      ((rng_idx', rng_idx_inv'), Z.lor path path_inv)
  end.

(** mul.py:70-76: the in-stream multiplier; entry = 2**width = length of rng. *)
Record fsumul_is_st : Type := { mi_sr : list Z; mi_idx : Z; mi_idx_inv : Z }.
Definition fsumul_is_init (width : nat) : fsumul_is_st :=
  {| mi_sr := shiftreg_init (2 ^ width); mi_idx := 0; mi_idx_inv := 0 |}.

(** mul.py:94-105. The index is kept modulo entry = length of rng, hence in range. *)
Definition fsumul_is_step (m : mode) (width : nat) (rng : list Z) (st : fsumul_is_st) (inp : Z * Z)
  : fsumul_is_st * Z :=
  let '(in_0, in_1) := inp in
  let entry := p2 width in
  let '(sr', (_, source)) := shiftreg_step (mi_sr st) (in_1, None, 0) in
  let path := Z.land in_0 (b2z (source >? nthZ rng (mi_idx st))) in
  let idx' := (mi_idx st + in_0) mod entry in
  match m with
  | Unipolar => ({| mi_sr := sr'; mi_idx := idx'; mi_idx_inv := mi_idx_inv st |}, path)
  | Bipolar =>
      let path_inv := Z.land (1 - in_0) (1 - b2z (source >? nthZ rng (mi_idx_inv st))) in
      let idx_inv' := (mi_idx_inv st + (1 - in_0)) mod entry in
      ({| mi_sr := sr'; mi_idx := idx'; mi_idx_inv := idx_inv' |}, Z.lor path path_inv)
  end.

(** ** FSUReLU; depth = S d so that 2**(depth-1) is an integer. *)

Definition fsurelu_init (d : nat) : Z := p2 d.  (* relu.py:31 *)

(** relu.py:33-40. (Lines 26-27 exchange stype and btype; only dtypes, no values, are affected.) *)
Definition fsurelu_step (d : nat) (acc : Z) (input : Z) : Z * Z :=
  let buf_max := p2 (S d) - 1 in
  let buf_half := p2 d in
  let half_prob_flag := b2z (acc >=? buf_half) in
  let output := Z.lor input (1 - half_prob_flag) in
  (zclamp 0 buf_max (acc + (output * 2 - 1)), output).

(** ** FSUSignAbs; depth = S d. *)

Definition fsusignabs_init (d : nat) : Z := p2 d.  (* signabs.py:31 *)

(** signabs.py:33-39: output (sign, abs). *)
Definition fsusignabs_step (d : nat) (acc : Z) (input : Z) : Z * (Z * Z) :=
  let buf_max := p2 (S d) - 1 in
  let buf_half := p2 d in
  let acc' := zclamp 0 buf_max (acc + (input * 2 - 1)) in
  let sign := b2z (acc' <? buf_half) in
  let output := Z.lxor sign input in
  (acc', (sign, output)).
