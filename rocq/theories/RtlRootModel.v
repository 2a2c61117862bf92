(** SystemVerilog: the square roots of hw/kernel/sqrt that feed the output back into a non-scaled addition. *)
Require Export Verif.RtlModel.
Open Scope Z_scope.

(** hw/kernel/sqrt/BISQRT_O_U.sv:13-51; DEP = S d, the parameters read as if separated by commas. Registers (sr, diff_acc). The loops over
    sr run to DEP, not to DEP_SR: only the entries 0..DEP-1 (DEP at most DEP_SR) are ever assigned, and reading any other gives an unknown
    bit, which is the second of the inputs (randNum, unknown, in). *)
Definition oroot_sr_init (dep : nat) : list Z := map (fun i => Z.of_nat i mod 2) (seq 0 dep).
Definition bisqrt_o_u_init (d : nat) : list Z * Z := (oroot_sr_init (S d), p2 d).
Definition oroot_out (d : nat) (diff_acc : Z) : Z := Z.land (bsel diff_acc d) (b2z (red_or (trunc d diff_acc))).
Definition bisqrt_o_u (d : nat) (st : list Z * Z) (inp : Z * Z * Z) : (list Z * Z) * Z :=
  let '(sr, diff_acc) := st in
  let '(randNum, unknown, x) := inp in
  let out := oroot_out d diff_acc in
  let out_inv := bnot out in
  let sr_out := nth (Z.to_nat randNum) sr unknown in
  let emit_out := Z.land out sr_out in
  let pc := x + emit_out in
  ((tl sr ++ [out_inv], trunc (S d) (diff_acc + pc - out)), out).

(** hw/kernel/sqrt/BISQRT_O_B.sv:15-63: the fed-back bit goes through Bi2Uni with DEP 3. Registers (sr, Bi2Uni, diff_acc). *)
Definition bisqrt_o_b_init (d : nat) : list Z * Z * Z := (oroot_sr_init (S d), bi2uni_rtl_init 2, p2 d).
Definition bisqrt_o_b (d : nat) (st : list Z * Z * Z) (inp : Z * Z * Z) : (list Z * Z * Z) * Z :=
  let '(sr, bu, diff_acc) := st in
  let '(randNum, unknown, x) := inp in
  let out := oroot_out d diff_acc in
  let out_inv := bnot out in
  let sr_out := nth (Z.to_nat randNum) sr unknown in
  let '(bu', out_uni) := bi2uni_rtl 2 bu out in
  let emit_out := Z.land out_uni sr_out in
  let pc := x + emit_out in
  ((tl sr ++ [out_inv], bu', trunc (S d) (diff_acc + pc - out)), out).
