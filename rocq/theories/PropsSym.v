(** Property C101: what rearranging and negating the inputs does to the outputs. *)
Require Import Verif.BaseLemmas Verif.SymSpec Verif.NetSpec Verif.ChainSpec Verif.KernelModel Verif.SymProof.
Open Scope Z_scope.

(** The order of the entries does not matter, even if it changes every cycle. *)
Theorem C101_order : forall c cols1 cols2, Forall2 (@Permutation Z) cols1 cols2 ->
  outs (fsuadd_step c) (fsuadd_init c) cols1 = outs (fsuadd_step c) (fsuadd_init c) cols2.
Proof. exact add_order. Qed.
Print Assumptions C101_order.
(** At a fixed scale a stream and its complement add nothing to a bipolar sum, zeros nothing to a unipolar one. *)
Theorem C101_pair : forall s d e cols ys, Forall (fun col => zlen col = e) cols -> length ys = length cols ->
  let c := {| fa_mode := Bipolar; fa_scale := Some s; fa_depth := d; fa_entry := None |} in
  outs (fsuadd_step c) (fsuadd_init c) (map2 (fun y col => y :: 1 - y :: col) ys cols) = outs (fsuadd_step c) (fsuadd_init c) cols.
Proof. exact add_pair. Qed.
Print Assumptions C101_pair.
Theorem C101_zero : forall s d cols,
  let c := {| fa_mode := Unipolar; fa_scale := Some s; fa_depth := d; fa_entry := None |} in
  outs (fsuadd_step c) (fsuadd_init c) (map (cons 0) cols) = outs (fsuadd_step c) (fsuadd_init c) cols.
Proof. exact add_zero. Qed.
Print Assumptions C101_zero.

(** Any mode, coding, scale and depth: a layer whose inputs are permuted together with the columns of its weights, of whose outputs
    some are kept, in any order and number, fed any selection of the batch's rows, emits exactly these rows and outputs. So neither
    the rows of a batch nor the outputs of a layer influence each other, and the order of the inputs does not matter. *)
Theorem C101_layer : forall c scale depth B h rows ins outs, pc_shape c -> (1 <= B)%nat -> Forall (batch_ok B (pc_in c)) h ->
  Permutation ins (seq 0 (pc_in c)) -> Forall (fun o => (o < pc_out c)%nat) outs -> rows <> [] -> Forall (fun b => (b < B)%nat) rows ->
  exists os, outputs (run_r (flin_step c (flin_acc_cfg c scale depth)) (flin_init c) (no_args h)) = Some os /\
    length os = length h /\ Forall (batch_ok B (pc_out c)) os /\
    let c' := arranged outs ins c in
    outputs (run_r (flin_step c' (flin_acc_cfg c' scale depth)) (flin_init c') (no_args (map (rearrange rows ins) h))) =
      Some (map (rearrange rows outs) os).
Proof. exact layer_arranged. Qed.
Print Assumptions C101_layer.
(** A network stays the same if the neurons of its layers are put in another order. *)
Theorem C101_net : forall ls n orders B h rows ins, orders_ok n ls orders -> (1 <= B)%nat -> Forall (batch_ok B n) h ->
  Permutation ins (seq 0 n) -> rows <> [] -> Forall (fun b => (b < B)%nat) rows ->
  exists os, outputs (run_r (net_step (map scaled ls)) (net_init (map scaled ls)) h) = Some os /\
    let ls' := arranged_net ins ls orders in
    outputs (run_r (net_step (map scaled ls')) (net_init (map scaled ls')) (map (rearrange rows ins) h)) =
      Some (map (rearrange rows (last orders ins)) os).
Proof. exact net_arranged. Qed.
Print Assumptions C101_net.

(** Bipolar multiplication is odd in the stream, bit for bit: by a held number ... *)
Theorem C101_mul : forall B rng xs, bits xs ->
  outs (fsumul_static_step Bipolar B rng) fsumul_static_init (negated xs) = negated (outs (fsumul_static_step Bipolar B rng) fsumul_static_init xs).
Proof. exact mul_negated. Qed.
Print Assumptions C101_mul.
(** ... and by another stream. *)
Theorem C101_mul_stream : forall w rng h, Forall (fun p : Z * Z => bit (fst p)) h ->
  outs (fsumul_is_step Bipolar w rng) (fsumul_is_init w) (map (fun p => (1 - fst p, snd p)) h) =
  negated (outs (fsumul_is_step Bipolar w rng) (fsumul_is_init w) h).
Proof. exact mul_is_negated. Qed.
Print Assumptions C101_mul_stream.
(** In the other operand it is not: the numbers are compared with a strict order. *)
Theorem C101_mul_weight_refuted : exists B rng xs, perm_seq 2 rng /\ bits xs /\
  outs (fsumul_static_step Bipolar (4 - B) rng) fsumul_static_init xs <> negated (outs (fsumul_static_step Bipolar B rng) fsumul_static_init xs).
Proof.
  exists 1, [0; 1; 2; 3], [1; 1]. split; [apply Permutation_refl|]. split; [repeat (constructor; [right; reflexivity|]); constructor|]. vm_compute. discriminate.
Qed.
Print Assumptions C101_mul_weight_refuted.

(** A bipolar layer without bias is odd up to one bit: the outputs on an input and on its negation together have at every moment a
    one for every cycle, or one fewer. *)
Theorem C101_layer_negated : forall l B h, sound l -> pc_mode (fst l) = Bipolar -> pc_bias (fst l) = None -> (1 <= B)%nat ->
  Forall (batch_ok B (pc_in (fst l))) h ->
  exists os1 os2,
    outputs (run_r (flin_step (fst l) (flin_acc_cfg (fst l) None (snd l))) (flin_init (fst l)) (no_args h)) = Some os1 /\
    outputs (run_r (flin_step (fst l) (flin_acc_cfg (fst l) None (snd l))) (flin_init (fst l)) (no_args (negated_batches h))) = Some os2 /\
    length os1 = length h /\ length os2 = length h /\
    Forall (batch_ok B (pc_out (fst l))) os1 /\ Forall (batch_ok B (pc_out (fst l))) os2 /\
    forall b o t, (b < B)%nat -> (o < pc_out (fst l))%nat -> (t <= length h)%nat ->
      0 <= Z.of_nat t - ones (firstn t (lane os1 b o)) - ones (firstn t (lane os2 b o)) <= 1.
Proof. exact layer_negated. Qed.
Print Assumptions C101_layer_negated.
(** A network of such layers is odd up to one bit per layer, however long it runs. *)
Theorem C101_net_negated : forall ls, Forall odd_layer ls -> forall n B h1 h2 k, fitted n ls -> (1 <= B)%nat -> 0 <= k ->
  Forall (batch_ok B n) h1 -> Forall (batch_ok B n) h2 -> length h1 = length h2 -> lanes_within B n (fun _ _ => k) (negated_batches h1) h2 ->
  exists os1 os2,
    outputs (run_r (net_step (map plain ls)) (net_init (map plain ls)) h1) = Some os1 /\
    outputs (run_r (net_step (map plain ls)) (net_init (map plain ls)) h2) = Some os2 /\
    length os1 = length h1 /\ length os2 = length h2 /\
    lanes_within B (width_out n ls) (fun _ _ => k + zlen ls) (negated_batches os1) os2.
Proof. exact net_negated. Qed.
Print Assumptions C101_net_negated.

(** Sign and magnitude, while the counter stays in its range: the sign of the negated stream is the other one and the magnitude is
    the same bit, except where the stream has carried as many ones as zeros; there both are positive and the bits differ. *)
Theorem C101_signabs : forall d xs k, bits xs -> in_signabs_range d xs -> in_signabs_range d (negated xs) -> (k < length xs)%nat ->
  let o := nth k (outs (fsusignabs_step d) (fsusignabs_init d) xs) (0, 0) in
  let o' := nth k (outs (fsusignabs_step d) (fsusignabs_init d) (negated xs)) (0, 0) in
  if walk (firstn (S k) xs) =? 0 then fst o = 0 /\ fst o' = 0 /\ snd o' = 1 - snd o else fst o' = 1 - fst o /\ snd o' = snd o.
Proof. exact signabs_negated. Qed.
Print Assumptions C101_signabs.

Definition ex_sl : pc_cfg :=
  {| pc_mode := Bipolar; pc_wtc := true; pc_rng := [0; 2; 1; 3]; pc_in := 3; pc_out := 2; pc_weight := [[1; 3; 0]; [4; 2; 2]]; pc_bias := Some [1; 3] |}.
Definition ex_so : pc_cfg * Z :=
  ({| pc_mode := Bipolar; pc_wtc := false; pc_rng := [0; 2; 1; 3]; pc_in := 2; pc_out := 1; pc_weight := [[1; 3]]; pc_bias := None |}, 6).
Definition ex_sh : list (list (list Z)) := [[[1; 0; 1]; [0; 0; 1]]; [[1; 1; 0]; [1; 1; 1]]; [[0; 1; 1]; [1; 0; 0]]; [[1; 1; 1]; [0; 1; 1]]].
Example C101_ex :
  outputs (run_r (flin_step ex_sl (flin_acc_cfg ex_sl (Some 1%Q) 8)) (flin_init ex_sl) (no_args ex_sh)) =
    Some [[[0; 1]; [0; 0]]; [[1; 1]; [0; 1]]; [[0; 1]; [0; 0]]; [[0; 1]; [0; 0]]] /\
  (let c' := arranged [1%nat; 0%nat; 1%nat] [2%nat; 0%nat; 1%nat] ex_sl in
   pc_weight c' = [[2; 4; 2]; [0; 1; 3]; [2; 4; 2]] /\ pc_bias c' = Some [3; 1; 3] /\
   map (rearrange [1%nat] [2%nat; 0%nat; 1%nat]) ex_sh = [[[1; 0; 0]]; [[1; 1; 1]]; [[0; 1; 0]]; [[1; 0; 1]]] /\
   outputs (run_r (flin_step c' (flin_acc_cfg c' (Some 1%Q) 8)) (flin_init c') (no_args (map (rearrange [1%nat] [2%nat; 0%nat; 1%nat]) ex_sh))) =
     Some [[[0; 0; 0]]; [[1; 0; 1]]; [[0; 0; 0]]; [[0; 0; 0]]]) /\
  outs (fsumul_static_step Bipolar 3 [0; 2; 1; 3]) fsumul_static_init [1; 0; 1; 1; 1] = [1; 0; 1; 1; 0] /\
  outs (fsumul_static_step Bipolar 3 [0; 2; 1; 3]) fsumul_static_init [0; 1; 0; 0; 0] = [0; 1; 0; 0; 1] /\
  odd_layer ex_so /\
  outputs (run_r (net_step (map plain [ex_so])) (net_init (map plain [ex_so])) [[[1; 1]]; [[1; 1]]; [[0; 1]]]) = Some [[[1]]; [[0]]; [[1]]] /\
  outputs (run_r (net_step (map plain [ex_so])) (net_init (map plain [ex_so])) [[[0; 0]]; [[0; 0]]; [[1; 0]]]) = Some [[[0]]; [[0]]; [[1]]] /\
  outs (fsusignabs_step 2) (fsusignabs_init 2) [0; 1; 1] = [(1, 1); (0, 1); (0, 1)] /\
  outs (fsusignabs_step 2) (fsusignabs_init 2) [1; 0; 0] = [(0, 1); (0, 0); (1, 1)].
Proof.
  split; [vm_compute; reflexivity|]. split; [cbv zeta; repeat split; vm_compute; reflexivity|]. do 2 (split; [vm_compute; reflexivity|]).
  split; [|repeat split; vm_compute; reflexivity].
  unfold odd_layer, sound, pc_shape. cbn. repeat split; try lia; try reflexivity; try (vm_compute; discriminate). repeat constructor.
Qed.
