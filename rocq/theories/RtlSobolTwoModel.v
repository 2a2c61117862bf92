(** SystemVerilog: SobolRNGtwo, two generators on one merged array of direction vectors, and the LSZ beside it. *)
Require Export Verif.RtlModel.
Open Scope Z_scope.

(** hw/stream/old/Sobol8bit/LSZ.sv:12-27 (the gates, those of SobolRNG/LSZ.sv) and 35-48, the case statement with its line for no zero; (lszidx, lszidxr).
    outohr (LSZ.sv:29-33) is not connected anywhere and left out. *)
Definition lsz8_word (x : Z) : Z := zsum (map (fun i => b2z (lsz_outoh x i) * p2 i) (seq 0 8)).
Definition lsz8 (x : Z) : nat * nat :=
  let outoh := lsz8_word x in
  if outoh =? 0 then (7, 0)%nat else if outoh =? 1 then (0, 7)%nat else if outoh =? 2 then (1, 6)%nat else
  if outoh =? 4 then (2, 5)%nat else if outoh =? 8 then (3, 4)%nat else if outoh =? 16 then (4, 3)%nat else
  if outoh =? 32 then (5, 2)%nat else if outoh =? 64 then (6, 1)%nat else if outoh =? 128 then (7, 0)%nat else (0, 7)%nat.

(** hw/stream/old/Sobol8bit/SobolRNGtwo.sv:29-46: bits hi..lo of a word; vecReg[0] and vecReg[1] from the merged array of eight nine-bit words. *)
Definition slice (x : Z) (hi lo : nat) : Z := (x / p2 lo) mod p2 (S hi - lo).
Definition vec_reg0 (dirVec : list Z) (i : nat) : Z :=
  match i with
  | 0%nat => slice (nth 0 dirVec 0) 8 8 * p2 7 | 1%nat => slice (nth 1 dirVec 0) 8 7 * p2 6 | 2%nat => slice (nth 2 dirVec 0) 8 6 * p2 5
  | 3%nat => slice (nth 3 dirVec 0) 8 5 * p2 4 | 4%nat => slice (nth 4 dirVec 0) 8 4 * p2 3 | 5%nat => slice (nth 5 dirVec 0) 8 3 * p2 2
  | 6%nat => slice (nth 6 dirVec 0) 8 2 * p2 1 | _ => slice (nth 7 dirVec 0) 8 1
  end.
Definition vec_reg1 (dirVec : list Z) (i : nat) : Z :=
  match i with
  | 0%nat => slice (nth 7 dirVec 0) 0 0 * p2 7 | 1%nat => slice (nth 6 dirVec 0) 1 0 * p2 6 | 2%nat => slice (nth 5 dirVec 0) 2 0 * p2 5
  | 3%nat => slice (nth 4 dirVec 0) 3 0 * p2 4 | 4%nat => slice (nth 3 dirVec 0) 4 0 * p2 3 | 5%nat => slice (nth 2 dirVec 0) 5 0 * p2 2
  | 6%nat => slice (nth 1 dirVec 0) 6 0 * p2 1 | _ => slice (nth 0 dirVec 0) 7 0
  end.
(** SobolRNGtwo.sv:48-56; registers out[0], out[1]; inputs (dirVec, (vecIdx[0], vecIdx[1])), the indices three-bit numbers. *)
Definition sobol_two_init : Z * Z := (0, 0).
Definition sobol_two (st : Z * Z) (inp : list Z * (nat * nat)) : (Z * Z) * (Z * Z) :=
  let '(out0, out1) := st in let '(dirVec, (vecIdx0, vecIdx1)) := inp in
  ((Z.lxor out0 (vec_reg0 dirVec vecIdx0), Z.lxor out1 (vec_reg1 dirVec vecIdx1)), st).
