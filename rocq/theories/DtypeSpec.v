(** What an element type of torch can hold, and for which widths a counter kept in it is exact. Written without the
    arithmetic of DtypeModel.v. *)
Require Export Verif.Spec Verif.DtypeModel.
Open Scope Z_scope.

(** A pair of stream bits. *)
Definition bit2 (i : Z * Z) : Prop := bit (fst i) /\ bit (snd i).

(** The integers a type represents exactly. *)
Definition holds (dt : dtype) (z : Z) : Prop :=
  match dt with
  | SInt b => - 2 ^ (Z.of_nat b - 1) <= z < 2 ^ (Z.of_nat b - 1)
  | UInt b => 0 <= z < 2 ^ Z.of_nat b
  | Flt p _ => exists m e, 0 <= e /\ Z.abs m < 2 ^ Z.of_nat p /\ z = m * 2 ^ e
  end.

(** The range of a type: a float type rounds inside it, an integer type is exact. *)
Definition dt_range (dt : dtype) (z : Z) : Prop :=
  match dt with
  | SInt _ | UInt _ => holds dt z
  | Flt _ emax => Z.abs z <= 2 ^ Z.of_nat emax
  end.

(** The largest depth at which a counter with the values -1 .. 2^depth is exact. *)
Definition room (dt : dtype) : nat :=
  match dt with SInt b => b - 2 | UInt b => 0 | Flt p _ => p end.

(** The same for a counter that never goes below zero (0 .. 2^depth). *)
Definition room0 (dt : dtype) : nat :=
  match dt with SInt b => b - 2 | UInt b => b - 1 | Flt p _ => p end.

(** -1, computed in the type [it] of a stream and converted to [bt], is still -1. *)
Definition keeps_minus (it bt : dtype) : Prop :=
  match it, bt with
  | UInt _, UInt _ | UInt _, Flt _ _ => False
  | UInt bi, SInt b => (b <= bi)%nat
  | _, _ => True
  end.

(** The largest n such that a type holds all of 0 .. n. *)
Definition max_count (dt : dtype) : Z :=
  match dt with
  | SInt b => 2 ^ (Z.of_nat b - 1) - 1
  | UInt b => 2 ^ Z.of_nat b - 1
  | Flt p _ => 2 ^ Z.of_nat p
  end.

(** Sums over an integer type are taken in int64; over a float type they are exact up to 2^p. *)
Definition wide_dt (bt : dtype) : dtype := match bt with Flt _ _ => bt | _ => t_int64 end.
Definition add_fits (bt : dtype) (e : Z) : Prop := match bt with Flt p _ => e <= 2 ^ Z.of_nat p | _ => True end.

(** The depth an accumulator in -2^d2 .. 2^d2 really has: counting by ones, a float type does not get past 2^p. *)
Definition acc_bits (bt : dtype) (d2 : nat) : nat := match bt with Flt p _ => Nat.min d2 p | _ => d2 end.

(** Full scale: every weight and bias is above every value of the sequence. *)
Definition saturated (c : pc_cfg) : Prop :=
  (forall o i v, (o < pc_out c)%nat -> (i < pc_in c)%nat -> In v (pc_rng c) -> v < entry2 (pc_weight c) o i) /\
  match pc_bias c with None => True | Some bs => forall o v, (o < pc_out c)%nat -> In v (pc_rng c) -> v < nth o bs 0 end.
