(** Property C100: how far wrong input bits reach. *)
Require Import Verif.BaseLemmas Verif.FaultSpec Verif.NetSpec Verif.ChainSpec Verif.KernelModel Verif.ShuffleModel Verif.DivModel Verif.FaultProof.
Open Scope Z_scope.

(** Flipping bits of a stream moves its count at no moment by more than their number. *)
Theorem C100_flips : forall xs ys, bits xs -> bits ys -> length xs = length ys -> within (flips xs ys) xs ys.
Proof. exact flips_within. Qed.
Print Assumptions C100_flips.

(** Addition in either mode, at any scale and depth, saturated or not: every wrong column costs at most the ones it is wrong by,
    rounded up to whole outputs; whether too high or too low. *)
Theorem C100_add : forall c e s cols1 cols2,
  resolved_entry None (fa_entry c) e = e -> resolved_scale None (fa_scale c) e = s -> (0 < s)%Q ->
  Forall (fun col => zlen col = e) cols1 -> Forall (fun col => zlen col = e) cols2 -> length cols1 = length cols2 ->
  forall t, (t <= length cols1)%nat ->
  Z.abs (ones (firstn t (outs (fsuadd_step c) (fsuadd_init c) cols1)) - ones (firstn t (outs (fsuadd_step c) (fsuadd_init c) cols2))) <=
  zsum (map (fun i => Qceiling (inject_Z (Z.abs (zsum (nth i cols2 []) - zsum (nth i cols1 []))) / s)) (seq 0 t)).
Proof. exact add_faults. Qed.
Print Assumptions C100_add.

(** Multiplication by a held number, in either mode, over any sequence: the product is never further off than the input was. *)
Theorem C100_mul : forall m B rng k xs ys, (0 < length rng)%nat -> bits xs -> bits ys -> length xs = length ys -> within k xs ys ->
  within k (outs (fsumul_static_step m B rng) fsumul_static_init xs) (outs (fsumul_static_step m B rng) fsumul_static_init ys).
Proof. exact mul_faults. Qed.
Print Assumptions C100_mul.

(** A layer at its default scale divides the sum of what its inputs are off by the number of its entries, rounded up. *)
Theorem C100_layer : forall l B h1 h2 k, sound l -> (1 <= B)%nat ->
  Forall (batch_ok B (pc_in (fst l))) h1 -> Forall (batch_ok B (pc_in (fst l))) h2 -> length h1 = length h2 ->
  lanes_within B (pc_in (fst l)) k h1 h2 ->
  exists os1 os2,
    outputs (run_r (flin_step (fst l) (flin_acc_cfg (fst l) None (snd l))) (flin_init (fst l)) (no_args h1)) = Some os1 /\
    outputs (run_r (flin_step (fst l) (flin_acc_cfg (fst l) None (snd l))) (flin_init (fst l)) (no_args h2)) = Some os2 /\
    length os1 = length h1 /\ length os2 = length h2 /\
    Forall (batch_ok B (pc_out (fst l))) os1 /\ Forall (batch_ok B (pc_out (fst l))) os2 /\
    lanes_within B (pc_out (fst l)) (fun b _ => (zsum (map (k b) (seq 0 (pc_in (fst l)))) + flin_entry (fst l) - 1) / flin_entry (fst l)) os1 os2.
Proof. exact linear_faults. Qed.
Print Assumptions C100_layer.
(** So a network of such layers, of any depth and widths and in either mode, never amplifies: if no input is ever off by more than k
    ones, then no output is. *)
Theorem C100_net : forall ls, Forall sound ls -> forall n B h1 h2 k, fitted n ls -> (1 <= B)%nat -> 0 <= k ->
  Forall (batch_ok B n) h1 -> Forall (batch_ok B n) h2 -> length h1 = length h2 -> lanes_within B n (fun _ _ => k) h1 h2 ->
  exists os1 os2,
    outputs (run_r (net_step (map plain ls)) (net_init (map plain ls)) h1) = Some os1 /\
    outputs (run_r (net_step (map plain ls)) (net_init (map plain ls)) h2) = Some os2 /\
    length os1 = length h1 /\ length os2 = length h2 /\
    lanes_within B (width_out n ls) (fun _ _ => k) os1 os2.
Proof. exact net_faults. Qed.
Print Assumptions C100_net.

(** ReLU, at any depth: at no moment off by more than the number of wrong bits. *)
Theorem C100_relu : forall d xs ys, bits xs -> bits ys -> length xs = length ys ->
  within (flips xs ys) (outs (fsurelu_step d) (fsurelu_init d) xs) (outs (fsurelu_step d) (fsurelu_init d) ys).
Proof. exact relu_faults. Qed.
Print Assumptions C100_relu.
(** Hard sigmoid halves. *)
Theorem C100_sigmoid : forall m d k xs ys, 4 <= d -> bits xs -> bits ys -> length xs = length ys -> within k xs ys ->
  within ((k + 1) / 2) (outs (fsuhardsigmoid_step m d) (fsuhardsigmoid_init m d) xs) (outs (fsuhardsigmoid_step m d) (fsuhardsigmoid_init m d) ys).
Proof. exact sigmoid_faults. Qed.
Print Assumptions C100_sigmoid.

(** Division has no such bound, whatever the buffer and the sequence: a single wrong dividend bit, remembered while the divisor is 0,
    changes any number of output bits. *)
Theorem C100_division_refuted : forall c w n, fd_mode c = Unipolar -> fd_entry c = (2 ^ w)%nat -> perm_seq w (fd_rng c) ->
  exists h1 h2 st1 o1 st2 o2, Forall bitpair h1 /\ Forall bitpair h2 /\ length h1 = length h2 /\
    flips (map fst h1) (map fst h2) = 1 /\ map snd h1 = map snd h2 /\
    run_r (fsudiv_step c) (fsudiv_init c) h1 = Ok (st1, o1) /\ run_r (fsudiv_step c) (fsudiv_init c) h2 = Ok (st2, o2) /\
    ones o2 = ones o1 + 1 + Z.of_nat n.
Proof. exact division_fault. Qed.
Print Assumptions C100_division_refuted.

(** A saturating adder with one bit up and one down; a product; a bipolar layer; ReLU; division. *)
Definition ex_fadd : fsuadd_cfg := {| fa_mode := Bipolar; fa_scale := Some 1%Q; fa_depth := 3; fa_entry := None |}.
Definition ex_fl : pc_cfg * Z :=
  ({| pc_mode := Bipolar; pc_wtc := false; pc_rng := [0; 2; 1; 3]; pc_in := 2; pc_out := 1; pc_weight := [[1; 3]]; pc_bias := None |}, 6).
Definition ex_fdiv : fsudiv_cfg :=
  {| fd_depth_sa := 2; fd_depth_ss := 2; fd_entry := 4; fd_mode := Unipolar; fd_rng := [0; 1; 2; 3] |}.
Example C100_ex :
  flips [1; 0; 0; 1] [1; 1; 0; 0] = 2 /\
  outs (fsuadd_step ex_fadd) (fsuadd_init ex_fadd) [[1; 1; 1]; [1; 1; 1]; [0; 0; 0]; [0; 1; 0]] = [1; 1; 0; 0] /\
  outs (fsuadd_step ex_fadd) (fsuadd_init ex_fadd) [[1; 1; 1]; [1; 0; 1]; [0; 0; 0]; [1; 1; 0]] = [1; 1; 0; 1] /\
  outs (fsumul_static_step Bipolar 3 [0; 2; 1; 3]) fsumul_static_init [1; 0; 1; 1; 0] = [1; 0; 1; 1; 0] /\
  outs (fsumul_static_step Bipolar 3 [0; 2; 1; 3]) fsumul_static_init [1; 0; 0; 1; 0] = [1; 0; 0; 1; 0] /\
  sound ex_fl /\
  outputs (run_r (net_step (map plain [ex_fl])) (net_init (map plain [ex_fl])) [[[1; 1]]; [[1; 1]]; [[0; 0]]; [[0; 1]]]) = Some [[[1]]; [[0]]; [[0]]; [[1]]] /\
  outputs (run_r (net_step (map plain [ex_fl])) (net_init (map plain [ex_fl])) [[[0; 0]]; [[1; 1]]; [[0; 0]]; [[0; 1]]]) = Some [[[0]]; [[1]]; [[0]]; [[1]]] /\
  outs (fsurelu_step 1) (fsurelu_init 1) [0; 1; 0; 0; 1; 0] = [0; 1; 0; 1; 1; 0] /\
  outs (fsurelu_step 1) (fsurelu_init 1) [1; 1; 0; 0; 0; 0] = [1; 1; 0; 0; 1; 0] /\
  outputs (run_r (fsudiv_step ex_fdiv) (fsudiv_init ex_fdiv) [(0, 1); (0, 0); (0, 0); (0, 0); (0, 0)]) = Some [0; 0; 1; 0; 1] /\
  outputs (run_r (fsudiv_step ex_fdiv) (fsudiv_init ex_fdiv) [(1, 1); (0, 0); (0, 0); (0, 0); (0, 0)]) = Some [1; 0; 1; 1; 1].
Proof.
  split; [reflexivity|]. do 4 (split; [vm_compute; reflexivity|]). split; [|repeat split; vm_compute; reflexivity].
  unfold sound, pc_shape. cbn. repeat split; try lia; try reflexivity; try (vm_compute; discriminate). repeat constructor.
Qed.
