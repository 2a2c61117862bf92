(** Vocabulary for the error of the binary-interfaced layers against the real affine layer. *)
From Coq Require Import String.
Require Export Verif.Spec Verif.UtilsModel Verif.NameSpec.
Open Scope string_scope.
Open Scope list_scope.
Open Scope Z_scope.

(** An upper bound of (largest magnitude) / 2^e where e is its rounded logarithm; 17/12 exceeds the square root of 2. *)
Definition top_ratio (r : rounding) : Q := match r with RCeil => 1 | RFloor => 2 | RRound => 17 # 12 end%Q.
(** The error of sign-magnitude quantisation in steps: half a step, or what the largest magnitude exceeds the top level by. *)
Definition hub_slack (r : rounding) (cycle : Z) (w : nat) : Q :=
  let over := (top_ratio r * inject_Z (p2 w) - inject_Z (cycle - 1))%Q in
  if Qle_bool (1 # 2) over then over else (1 # 2)%Q.
(** The quantisation steps of TLUTLinear's operands, as fractions of the largest magnitude: fixed point keeps width - 1 magnitude bits,
    and without two fixed-point operands only the temporal coded one is quantised. *)
Definition tlut_steps (temporal formati formatw : string) (widthi widthw : nat) (ei ew : Q) : Prop :=
  let fixed := named formati ["fxp"] /\ named formatw ["fxp"] in
  fixed /\ ei = Qpower 2 (2 - Z.of_nat widthi) /\ ew = Qpower 2 (2 - Z.of_nat widthw) \/
  ~ fixed /\ named temporal ["i"; "input"] /\ (exists m, significand formati widthi m /\ ei = Qpower 2 (1 - Z.of_nat m)) /\ ew = 0%Q \/
  ~ fixed /\ named temporal ["w"; "weight"] /\ ei = 0%Q /\ (exists m, significand formatw widthw m /\ ew = Qpower 2 (1 - Z.of_nat m)).
