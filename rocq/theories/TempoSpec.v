(** Vocabulary for layers with temporally coded weights. *)
Require Export Verif.WeightSpec.
Open Scope Z_scope.

(** A layer at its default scale that is deep enough not to saturate, in either mode, with temporally coded weights. *)
Definition timed (l : pc_cfg * Z) : Prop :=
  pc_shape (fst l) /\ pc_wtc (fst l) = true /\ 0 < flin_entry (fst l) /\ (inject_Z (2 * flin_entry (fst l) - 1) <= qpow2 (snd l - 2))%Q.

(** Two such layers on the sequence 0, 1, 0, 1, ...: one input, multiplied by 1/2 (a one in every even cycle); two inputs, each multiplied by 1. *)
Definition tick : pc_cfg * Z :=
  ({| pc_mode := Unipolar; pc_wtc := true; pc_rng := [0; 1]; pc_in := 1; pc_out := 1; pc_weight := [[1]]; pc_bias := None |}, 8).
Definition halve : pc_cfg * Z :=
  ({| pc_mode := Unipolar; pc_wtc := true; pc_rng := [0; 1]; pc_in := 2; pc_out := 1; pc_weight := [[2; 2]]; pc_bias := None |}, 8).
