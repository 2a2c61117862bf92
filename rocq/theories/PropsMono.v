(** Property C99: which units are monotone, and how far. *)
Require Import Verif.BaseLemmas Verif.MonoSpec Verif.ChainSpec Verif.NetSpec Verif.KernelModel Verif.DivModel Verif.DivProof Verif.MonoProof Verif.MonoUnitsProof.
Open Scope Z_scope.

(** More ones in a column never mean fewer ones out, at any moment, in either mode, at any scale, saturated or not; and never more
    than the additional ones, rounded up to whole outputs column by column. *)
Theorem C99_add : forall c e s cols1 cols2,
  resolved_entry None (fa_entry c) e = e -> resolved_scale None (fa_scale c) e = s -> (0 < s)%Q ->
  Forall (fun col => zlen col = e) cols1 -> Forall (fun col => zlen col = e) cols2 -> columns_le cols1 cols2 ->
  behind_by (surplus s cols1 cols2) (outs (fsuadd_step c) (fsuadd_init c) cols1) (outs (fsuadd_step c) (fsuadd_init c) cols2).
Proof. exact add_mono. Qed.
Print Assumptions C99_add.

(** Two adders with different pasts fed the same from now on: the one whose accumulator is higher is never behind, and never ahead
    by more than the difference is worth in whole outputs. *)
Theorem C99_past : forall c e s g1 g2 h,
  resolved_entry None (fa_entry c) e = e -> resolved_scale None (fa_scale c) e = s -> (0 < s)%Q ->
  Forall (fun col => zlen col = e) g1 -> Forall (fun col => zlen col = e) g2 -> Forall (fun col => zlen col = e) h ->
  let st g := final (fsuadd_step c) (fsuadd_init c) g in
  (fs_acc (st g1) <= fs_acc (st g2))%Q ->
  behind_by (fun _ => Qceiling ((fs_acc (st g2) - fs_acc (st g1)) / s))
    (outs (fsuadd_step c) (st g1) h) (outs (fsuadd_step c) (st g2) h).
Proof. exact add_past. Qed.
Print Assumptions C99_past.
(** So no past whatever can change how many ones the same future input gives by more than 2^(depth-1)/scale. *)
Theorem C99_any_past : forall c e s g1 g2 h,
  resolved_entry None (fa_entry c) e = e -> resolved_scale None (fa_scale c) e = s -> (0 < s)%Q ->
  Forall (fun col => zlen col = e) g1 -> Forall (fun col => zlen col = e) g2 -> Forall (fun col => zlen col = e) h ->
  let later g := outs (fsuadd_step c) (final (fsuadd_step c) (fsuadd_init c) g) h in
  Z.abs (ones (later g2) - ones (later g1)) <= Qceiling (2 * qpow2 (fa_depth c - 2) / s).
Proof. exact add_any_past. Qed.
Print Assumptions C99_any_past.

(** Away from the limits it is enough that the ones come no later: if at every moment the second input has carried at least as many
    ones as the first, then so has the second output. *)
Theorem C99_earlier : forall c e s cols1 cols2,
  resolved_entry None (fa_entry c) e = e -> resolved_scale None (fa_scale c) e = s -> (0 < s)%Q ->
  Forall bits cols1 -> Forall bits cols2 -> Forall (fun col => zlen col = e) cols1 -> Forall (fun col => zlen col = e) cols2 ->
  length cols1 = length cols2 ->
  (forall p, total_ones (firstn p cols1) <= total_ones (firstn p cols2)) ->
  let free cols := unclamped (qpow2 (fa_depth c - 2)) s
    (fun p => inject_Z (total_ones (firstn p cols)) - inject_Z (Z.of_nat p) * mode_offset (fa_mode c) e s)%Q
    (fun t => ones (firstn t (outs (fsuadd_step c) (fsuadd_init c) cols))) (length cols) in
  free cols1 -> free cols2 ->
  behind (outs (fsuadd_step c) (fsuadd_init c) cols1) (outs (fsuadd_step c) (fsuadd_init c) cols2).
Proof. exact add_dominated. Qed.
Print Assumptions C99_earlier.
(** At the limit it is not: ones that come too early are cut off, and the input with more of them gives fewer. *)
Definition ex_shallow : fsuadd_cfg := {| fa_mode := Unipolar; fa_scale := Some 1%Q; fa_depth := 3; fa_entry := None |}.
Theorem C99_earlier_clamped_refuted : exists cols1 cols2, Forall bits cols1 /\ Forall bits cols2 /\
  Forall (fun col => zlen col = 3) cols1 /\ Forall (fun col => zlen col = 3) cols2 /\ length cols1 = length cols2 /\
  (forall p, total_ones (firstn p cols1) <= total_ones (firstn p cols2)) /\
  ones (outs (fsuadd_step ex_shallow) (fsuadd_init ex_shallow) cols1) = 3 /\
  ones (outs (fsuadd_step ex_shallow) (fsuadd_init ex_shallow) cols2) = 2.
Proof.
  exists [[1; 0; 0]; [1; 0; 0]; [1; 0; 0]], [[1; 1; 1]; [0; 0; 0]; [0; 0; 0]].
  assert (B : forall l : list Z, forallb (fun z => (z =? 0) || (z =? 1)) l = true -> bits l).
  { intros l H. rewrite forallb_forall in H. apply Forall_forall. intros z Hz. specialize (H z Hz). unfold bit. lia. }
  repeat split; try (repeat constructor; fail); try (repeat (constructor; [apply B; reflexivity|]); constructor).
  intros [|[|[|[|p]]]]; vm_compute; discriminate.
Qed.
Print Assumptions C99_earlier_clamped_refuted.

(** Unipolar layers: nowhere smaller weights and biases never give fewer ones at any output, at any scale and depth. *)
Theorem C99_weights : forall c1 c2 scale depth B h,
  pc_shape c1 -> pc_shape c2 -> pc_in c1 = pc_in c2 -> pc_out c1 = pc_out c2 -> pc_rng c1 = pc_rng c2 -> pc_wtc c1 = pc_wtc c2 ->
  pc_mode c1 = Unipolar -> pc_mode c2 = Unipolar -> table_le (pc_weight c1) (pc_weight c2) -> option_le (pc_bias c1) (pc_bias c2) ->
  (1 <= B)%nat -> Forall (batch_ok B (pc_in c1)) h ->
  (0 < match scale with None => inject_Z (flin_entry c1) | Some q => q end)%Q ->
  exists os1 os2, outputs (run_r (flin_step c1 (flin_acc_cfg c1 scale depth)) (flin_init c1) (no_args h)) = Some os1 /\
    outputs (run_r (flin_step c2 (flin_acc_cfg c2 scale depth)) (flin_init c2) (no_args h)) = Some os2 /\
    length os1 = length h /\ length os2 = length h /\ lanes_behind B (pc_out c1) os1 os2.
Proof. exact linear_weights. Qed.
Print Assumptions C99_weights.

(** ... nor do inputs that are never behind; and the same through any number of layers. *)
Theorem C99_layer : forall l1 l2 B h1 h2, layers_le l1 l2 -> pc_shape (fst l1) -> pc_shape (fst l2) -> (1 <= B)%nat ->
  Forall (batch_ok B (pc_in (fst l1))) h1 -> Forall (batch_ok B (pc_in (fst l1))) h2 -> length h1 = length h2 ->
  lanes_behind B (pc_in (fst l1)) h1 h2 ->
  exists os1 os2,
    outputs (run_r (flin_step (fst l1) (flin_acc_cfg (fst l1) None (snd l1))) (flin_init (fst l1)) (no_args h1)) = Some os1 /\
    outputs (run_r (flin_step (fst l2) (flin_acc_cfg (fst l2) None (snd l2))) (flin_init (fst l2)) (no_args h2)) = Some os2 /\
    length os1 = length h1 /\ length os2 = length h2 /\
    Forall (batch_ok B (pc_out (fst l1))) os1 /\ Forall (batch_ok B (pc_out (fst l1))) os2 /\
    lanes_behind B (pc_out (fst l1)) os1 os2.
Proof. exact linear_behind. Qed.
Print Assumptions C99_layer.
Theorem C99_net : forall ls1 ls2, Forall2 layers_le ls1 ls2 -> forall n B h1 h2, fitted n ls1 -> fitted n ls2 -> (1 <= B)%nat ->
  Forall (batch_ok B n) h1 -> Forall (batch_ok B n) h2 -> length h1 = length h2 -> lanes_behind B n h1 h2 ->
  exists os1 os2,
    outputs (run_r (net_step (map plain ls1)) (net_init (map plain ls1)) h1) = Some os1 /\
    outputs (run_r (net_step (map plain ls2)) (net_init (map plain ls2)) h2) = Some os2 /\
    length os1 = length h1 /\ length os2 = length h2 /\
    lanes_behind B (width_out n ls1) os1 os2.
Proof. exact net_behind. Qed.
Print Assumptions C99_net.

(** ReLU, at any depth, saturated or not: an input that is bit by bit at least as high gives an output that is at no moment behind,
    and never ahead by more than the input is. *)
Theorem C99_relu : forall d xs ys, bits xs -> bits ys -> bits_le xs ys ->
  behind_by (fun t => ones (firstn t ys) - ones (firstn t xs))
    (outs (fsurelu_step d) (fsurelu_init d) xs) (outs (fsurelu_step d) (fsurelu_init d) ys).
Proof. exact relu_mono. Qed.
Print Assumptions C99_relu.
(** That the ones come no later is not enough: at the default depth zeros before ones give more than ones before zeros. *)
Theorem C99_relu_earlier_refuted : exists xs ys, bits xs /\ bits ys /\ length xs = length ys /\ behind xs ys /\
  ones (outs (fsurelu_step 5) (fsurelu_init 5) xs) = 6 /\ ones (outs (fsurelu_step 5) (fsurelu_init 5) ys) = 4.
Proof.
  exists [0; 0; 0; 0; 1; 1; 1; 1], [1; 1; 1; 1; 0; 0; 0; 0].
  assert (B : forall l : list Z, forallb (fun z => (z =? 0) || (z =? 1)) l = true -> bits l).
  { intros l H. rewrite forallb_forall in H. apply Forall_forall. intros z Hz. specialize (H z Hz). unfold bit. lia. }
  split; [apply B; reflexivity|]. split; [apply B; reflexivity|]. split; [reflexivity|]. split; [|split; vm_compute; reflexivity].
  intros t. do 9 (destruct t as [|t]; [vm_compute; discriminate|]). rewrite !firstn_all2 by (cbn; lia). vm_compute. discriminate.
Qed.
Print Assumptions C99_relu_earlier_refuted.

(** Hard sigmoid: it is enough that the input is at no moment behind, and the output is ahead by at most half as much, rounded up. *)
Theorem C99_sigmoid : forall m d xs ys, 4 <= d -> bits xs -> bits ys -> length xs = length ys -> behind xs ys ->
  behind_by (fun t => (ones (firstn t ys) - ones (firstn t xs) + 1) / 2)
    (outs (fsuhardsigmoid_step m d) (fsuhardsigmoid_init m d) xs) (outs (fsuhardsigmoid_step m d) (fsuhardsigmoid_init m d) ys).
Proof. exact sigmoid_mono. Qed.
Print Assumptions C99_sigmoid.

(** Division by the same divisor: a dividend that is bit by bit at least as high gives a quotient that is bit by bit at least as high. *)
Theorem C99_kernel : forall w rng h1 h2, index_seq w rng -> dividend_le h1 h2 ->
  exists st1 o1 st2 o2, run_r (cordiv_step (2 ^ w) rng) (cordiv_init (2 ^ w)) h1 = Ok (st1, o1) /\
    run_r (cordiv_step (2 ^ w) rng) (cordiv_init (2 ^ w)) h2 = Ok (st2, o2) /\ length o1 = length h1 /\ bits_le o1 o2.
Proof. exact kernel_mono. Qed.
Print Assumptions C99_kernel.
Theorem C99_division : forall c w h1 h2, fd_mode c = Unipolar -> fd_entry c = (2 ^ w)%nat -> index_seq w (fd_rng c) ->
  Forall bitpair h1 -> Forall bitpair h2 -> dividend_le h1 h2 ->
  exists st1 o1 st2 o2, run_r (fsudiv_step c) (fsudiv_init c) h1 = Ok (st1, o1) /\
    run_r (fsudiv_step c) (fsudiv_init c) h2 = Ok (st2, o2) /\ length o1 = length h1 /\ bits_le o1 o2.
Proof. exact division_mono. Qed.
Print Assumptions C99_division.
(** In the divisor it is not monotone: where a divisor of zeros gives 1/2, one of ones gives 1. *)
Definition ex_div : fsudiv_cfg :=
  {| fd_depth_sa := 2; fd_depth_ss := 2; fd_entry := 4; fd_mode := Unipolar; fd_rng := [0; 1; 2; 3] |}.
Theorem C99_divisor_refuted : exists h1 h2, Forall bitpair h1 /\ Forall bitpair h2 /\ map fst h1 = map fst h2 /\ bits_le (map snd h1) (map snd h2) /\
  outputs (run_r (fsudiv_step ex_div) (fsudiv_init ex_div) h1) = Some [0; 1; 0; 1] /\
  outputs (run_r (fsudiv_step ex_div) (fsudiv_init ex_div) h2) = Some [1; 1; 1; 1].
Proof.
  exists [(1, 0); (1, 0); (1, 0); (1, 0)], [(1, 1); (1, 1); (1, 1); (1, 1)].
  split; [repeat constructor; cbn; unfold bit; lia|]. split; [repeat constructor; cbn; unfold bit; lia|]. split; [reflexivity|].
  split; [cbn; repeat constructor; lia|]. split; vm_compute; reflexivity.
Qed.
Print Assumptions C99_divisor_refuted.

(** A scaled adder, a saturated one and one with a past; two layers with one larger weight. *)
Definition ex_half : fsuadd_cfg := {| fa_mode := Bipolar; fa_scale := Some (3 # 2)%Q; fa_depth := 4; fa_entry := None |}.
Definition ex_l (w : Z) : pc_cfg * Z :=
  ({| pc_mode := Unipolar; pc_wtc := false; pc_rng := [0; 2; 1; 3]; pc_in := 2; pc_out := 1; pc_weight := [[1; w]]; pc_bias := None |}, 6).
Example C99_ex :
  let cols1 := [[1; 0; 1]; [0; 1; 1]; [1; 0; 1]; [1; 1; 1]] in let cols2 := [[1; 1; 1]; [0; 1; 1]; [1; 1; 1]; [1; 1; 1]] in
  outs (fsuadd_step ex_half) (fsuadd_init ex_half) cols1 = [0; 1; 1; 1] /\
  outs (fsuadd_step ex_half) (fsuadd_init ex_half) cols2 = [1; 1; 1; 1] /\
  surplus (3 # 2) cols1 cols2 4 = 2 /\
  outs (fsuadd_step ex_shallow) (final (fsuadd_step ex_shallow) (fsuadd_init ex_shallow) [[1; 1; 1]; [1; 1; 1]]) [[0; 0; 0]; [0; 0; 0]] = [1; 0] /\
  layers_le (ex_l 2) (ex_l 4) /\
  outs (fsurelu_step 1) (fsurelu_init 1) [0; 1; 0; 0; 0; 0] = [0; 1; 0; 1; 0; 1] /\
  outs (fsurelu_step 1) (fsurelu_init 1) [1; 1; 0; 0; 0; 0] = [1; 1; 0; 0; 1; 0] /\
  outputs (run_r (fsudiv_step ex_div) (fsudiv_init ex_div) [(0, 1); (1, 1); (0, 0); (1, 1); (0, 0)]) = Some [0; 1; 0; 1; 1] /\
  outputs (run_r (fsudiv_step ex_div) (fsudiv_init ex_div) [(1, 1); (1, 1); (0, 0); (1, 1); (0, 0)]) = Some [1; 1; 1; 1; 1] /\
  outputs (run_r (net_step (map plain [ex_l 2])) (net_init (map plain [ex_l 2])) [[[1; 1]]; [[1; 1]]; [[1; 0]]; [[0; 1]]]) = Some [[[1]]; [[0]]; [[0]]; [[0]]] /\
  outputs (run_r (net_step (map plain [ex_l 4])) (net_init (map plain [ex_l 4])) [[[1; 1]]; [[1; 1]]; [[1; 0]]; [[0; 1]]]) = Some [[[1]]; [[0]]; [[0]]; [[1]]].
Proof.
  cbv zeta. split; [vm_compute; reflexivity|]. split; [vm_compute; reflexivity|]. split; [vm_compute; reflexivity|]. split; [vm_compute; reflexivity|].
  split; [|repeat split; vm_compute; reflexivity].
  unfold layers_le, table_le. cbn. repeat split; try lia; try reflexivity; try (vm_compute; discriminate). repeat constructor; lia.
Qed.
