(** Property C73: ShiftReg, CORDIV_kernel, FSUDiv and FSUSqrt on tensors: every element evolves as if processed alone. *)
Require Import Verif.BaseLemmas Verif.TDivModel Verif.TDivSpec Verif.TDivProof.
Open Scope Z_scope.

(** C73. ShiftReg: calls on inputs (and masks) of one shape, any read position inside the register. *)
Theorem C73_shiftreg : forall entry s xs, Forall (sr_call entry s) xs ->
  same_lanes sr_at (both s) elt2 s (streg_run entry) (streg_init entry) (total shiftreg_step) (shiftreg_init entry) xs.
Proof. exact @streg_lanes. Qed.
Print Assumptions C73_shiftreg.
(** A read position outside the register raises IndexError; a mask of another shape than the input raises AssertionError. *)
Theorem C73_shiftreg_index : forall entry st x mask k, (sr_first st = false -> dim0 (sr_reg st) = entry) -> (entry <= k)%nat ->
  streg_t entry st x mask k = Err IndexError.
Proof. exact @streg_index. Qed.
Print Assumptions C73_shiftreg_index.
Theorem C73_shiftreg_mask : forall entry st x m k, (sr_first st = false -> dim0 (sr_reg st) = entry) -> (k < entry)%nat -> shp m <> shp x ->
  streg_t entry st x (Some m) k = Err AssertionError.
Proof. exact @streg_mask. Qed.
Print Assumptions C73_shiftreg_mask.
(** After the first call the shape of the register is fixed: an input of another shape is accepted exactly when, leading sizes 1 dropped,
    it can be expanded to the first input's shape. *)
Theorem C73_shiftreg_reshape : forall entry s st x k, sr_first st = false -> shp (sr_reg st) = s ++ [entry] -> (k < entry)%nat ->
  (bshape (strip1 (shp x)) s = Some s -> exists st' y, streg_t entry st x None k = Ok (st', y) /\ shp (sr_reg st') = s ++ [entry]) /\
  (bshape (strip1 (shp x)) s <> Some s -> streg_t entry st x None k = Err RuntimeError).
Proof. exact @streg_reshape. Qed.
Print Assumptions C73_shiftreg_reshape.

(** CORDIV_kernel: operands of one shape, 0-dimensional included; whatever the state, a call on operands of different shapes raises. *)
Theorem C73_cordiv : forall entry rng s xs, Forall (both s) xs ->
  same_lanes elt2 (fun y => shp y = s) (@elt Z) s (cordiv_t entry rng) (cordiv_t_init entry) (cordiv_step entry rng) (cordiv_init entry) xs.
Proof. exact @cordiv_lanes. Qed.
Print Assumptions C73_cordiv.
Theorem C73_cordiv_shapes : forall entry rng st x st' y, cordiv_t entry rng st x = Ok (st', y) -> shp (fst x) = shp (snd x) /\ shp y = shp (fst x).
Proof. exact @cordiv_shapes. Qed.
Print Assumptions C73_cordiv_shapes.

(** FSUDiv; in bipolar mode the operands have at least one dimension. *)
Theorem C73_div : forall c s xs, (fd_mode c = Bipolar -> s <> []) -> Forall (both s) xs ->
  same_lanes elt2 (fun y => shp y = s) (@elt Z) s (fsudiv_t c) (fsudiv_t_init c) (fsudiv_step c) (fsudiv_init c) xs.
Proof. exact @div_lanes. Qed.
Print Assumptions C73_div.

(** FSUSqrt, all modes, inputs with at least one dimension. *)
Theorem C73_sqrt_trace : forall m jk rng s xs, s <> [] -> Forall (fun x => shp x = s) xs ->
  same_lanes (@elt Z) (fun y => shp y = s) (@elt Z) s (sqrt_trace_t m jk rng) sqrt_trace_t_init (sqrt_trace_step m jk rng) sqrt_trace_init xs.
Proof. exact @trace_lanes. Qed.
Print Assumptions C73_sqrt_trace.
Theorem C73_sqrt_emit : forall m n s xs, (0 < n)%nat -> s <> [] -> Forall (fun x => shp x = s) xs ->
  same_lanes (@elt Z) (fun y => shp y = s) (@elt Z) s (sqrt_emit_t m n) (sqrt_emit_t_init n) (total (sqrt_emit_step m n)) (sqrt_emit_init n) xs.
Proof. exact @emit_lanes. Qed.
Print Assumptions C73_sqrt_emit.
(** Emit mode on 0-dimensional inputs computes the identity instead of the square root: the adder returns shape [1], so the emitted bit
    is replaced by 0 at every call. *)
Theorem C73_sqrt_emit_scalar : forall m n xs, (0 < n)%nat -> Forall (fun x => shp x = [] /\ bit (elt x [])) xs ->
  exists st ys, run_r (sqrt_emit_t m n) (sqrt_emit_t_init n) xs = Ok (st, ys) /\ length ys = length xs /\ Forall (fun y => shp y = [1%nat]) ys /\
  map (fun y => elt y [0%nat]) ys = map (fun x => elt x []) xs.
Proof. exact @emit_scalar. Qed.
Print Assumptions C73_sqrt_emit_scalar.

(** Concrete runs. A tensor of shape [2]; outputs read back as lists. *)
Definition v2 (a b : Z) : tensor Z := mkT [2%nat] (fun i => nth (hd 0%nat i) [a; b] 0).
Definition read {St} (s : list index) (r : result (St * list (tensor Z))) : result (list (list Z)) :=
  match r with Ok (_, ys) => Ok (map (fun y => map (elt y) s) ys) | Err e => Err e end.
Definition sc (a : Z) : tensor Z := mkT [] (fun _ => a).

(** Two lanes of a division: lane 0 has divisor 1 throughout, lane 1 reads its own history when the divisor is 0. *)
Example C73_cordiv_ex :
  read [[0%nat]; [1%nat]] (run_r (cordiv_t 2 [0; 1]) (cordiv_t_init 2) [(v2 1 1, v2 1 1); (v2 0 0, v2 1 0); (v2 1 0, v2 1 0)]) = Ok [[1; 1]; [0; 1]; [1; 1]].
Proof. vm_compute. reflexivity. Qed.
Example C73_cordiv_raises_ex : run_r (cordiv_t 2 [0; 3]) (cordiv_t_init 2) [(v2 1 1, v2 1 1); (v2 0 0, v2 1 0)] = Err IndexError.
Proof. vm_compute. reflexivity. Qed.
Example C73_cordiv_shapes_ex : run_r (cordiv_t 2 [0; 1]) (cordiv_t_init 2) [(v2 1 1, sc 1)] = Err AssertionError.
Proof. vm_compute. reflexivity. Qed.
(** A scalar division. *)
Example C73_scalar_ex :
  read [[]] (run_r (cordiv_t 2 [0; 1]) (cordiv_t_init 2) [(sc 1, sc 1); (sc 0, sc 0); (sc 0, sc 1); (sc 0, sc 0)]) = Ok [[1]; [1]; [0]; [0]].
Proof. vm_compute. reflexivity. Qed.
Definition div_ex_cfg : fsudiv_cfg := {| fd_mode := Bipolar; fd_depth_sa := 3; fd_depth_ss := 2; fd_entry := 2; fd_rng := [0; 1] |}.
Example C73_div_ex :
  let xs := [(v2 1 0, v2 1 1); (v2 0 1, v2 1 1); (v2 1 0, v2 1 0); (v2 1 1, v2 1 1)] in
  read [[0%nat]; [1%nat]] (run_r (fsudiv_t div_ex_cfg) (fsudiv_t_init div_ex_cfg) xs) = Ok [[1; 0]; [0; 1]; [1; 0]; [1; 1]] /\
  Forall (both [2%nat]) xs.
Proof. split; [vm_compute; reflexivity|repeat constructor]. Qed.
(** The emitting square root of the scalar stream 1,1,0,0,0 is itself; in a tensor of shape [1] the feedback adds ones. *)
Example C73_sqrt_scalar_ex :
  read [[0%nat]] (run_r (sqrt_emit_t Unipolar 2) (sqrt_emit_t_init 2) [sc 1; sc 1; sc 0; sc 0; sc 0]) = Ok [[1]; [1]; [0]; [0]; [0]] /\
  read [[0%nat]] (run_r (sqrt_emit_t Unipolar 2) (sqrt_emit_t_init 2) [tone 1; tone 1; tone 0; tone 0; tone 0]) = Ok [[1]; [1]; [1]; [0]; [0]].
Proof. split; vm_compute; reflexivity. Qed.
(** A column of one row shifted into a register of two rows is expanded; three columns into two are refused. *)
Example C73_shiftreg_ex :
  let st := {| sr_first := false; sr_reg := mkT [2%nat; 2%nat] (fun i => match i with [0%nat; 0%nat] => 1 | _ => 0 end) |} in
  (exists st' y, streg_t 2 st (tone 1) None 0 = Ok (st', y) /\ lane 2 (sr_reg st') [0%nat] = [0; 1] /\ lane 2 (sr_reg st') [1%nat] = [0; 1] /\ elt (fst y) [0%nat] = 1) /\
  streg_t 2 st (mkT [3%nat] (fun _ => 1)) None 0 = Err RuntimeError.
Proof. split; [do 2 eexists; split; [reflexivity|]; vm_compute; auto|vm_compute; reflexivity]. Qed.
