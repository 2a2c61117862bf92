(** Property C109: inputs that repeat give outputs that repeat, and a period of them is worth exactly the real value. *)
Require Import Verif.BaseLemmas Verif.PeriodSpec Verif.GenModel Verif.KernelModel Verif.LinearModel Verif.NetSpec Verif.ConvModel Verif.ConvProof Verif.PeriodProof Verif.PeriodConvProof Verif.CnnSpec Verif.PeriodReluProof.
Open Scope Z_scope.

(** BSGen: its stream repeats every 2^w cycles and any 2^w cycles in a row are worth exactly the number it encodes. *)
Theorem C109_gen : forall m w rng B n, perm_seq w rng -> 0 <= B <= p2 w -> repeats m 0 (2 ^ w) (grid_value m w B) (bsgen_stream B rng 0 n).
Proof. exact gen_repeats. Qed.
Print Assumptions C109_gen.

(** Static FSUMul: from the moment its input repeats every P cycles its output repeats every 2^w P cycles, and any such window is worth exactly
    the product, whatever came in before. *)
Theorem C109_mul : forall m w rng B T0 P v xs, perm_seq w rng -> 0 <= B <= p2 w -> bits xs -> (1 <= P)%nat -> repeats m T0 P v xs ->
  repeats m T0 (2 ^ w * P) (v * grid_value m w B) (outs (fsumul_static_step m B rng) fsumul_static_init xs).
Proof. exact mul_repeats. Qed.
Print Assumptions C109_mul.

(** FSULinear at its default scale: the period is multiplied once more by the number of entries, and any such window is worth exactly the
    average of the products. *)
Theorem C109_linear : forall m w l, whole_layer m w l -> forall B T0 P h x, (1 <= B)%nat -> (1 <= P)%nat -> Forall (batch_ok B (pc_in (fst l))) h ->
  (forall b i, (b < B)%nat -> (i < pc_in (fst l))%nat -> repeats m T0 P (x b i) (lane h b i)) ->
  exists os, outputs (run_r (flin_step (fst l) (flin_acc_cfg (fst l) None (snd l))) (flin_init (fst l)) (no_args h)) = Some os /\
    length os = length h /\ Forall (batch_ok B (pc_out (fst l))) os /\
    forall b o, (b < B)%nat -> (o < pc_out (fst l))%nat -> repeats m T0 (fan_in l * (2 ^ w * P)) (grid_layer m w l (x b) o) (lane os b o).
Proof. exact linear_repeats. Qed.
Print Assumptions C109_linear.

(** FSUConv2d: the same for every window, in bipolar mode for even periods, because the padding alternates; what lies beyond the border counts 0. *)
Theorem C109_conv : forall m w c depth, whole_layer m w (cv_pc c, depth) -> forall p N H W ho wo, conv_geom c p H W ho wo -> (1 <= N)%nat ->
  forall T0 P h f, (1 <= P)%nat -> (m = Bipolar -> Nat.even P = true) -> Forall (tensor_ok bit N (cv_chan c) H W) h ->
  (forall n k y x, (n < N)%nat -> (k < cv_chan c)%nat -> (y < H)%nat -> (x < W)%nat -> repeats m T0 P (f n k y x) (lane4 h n k y x)) ->
  exists os, outputs (run_r (fconv_step c (flin_acc_cfg (cv_pc c) None depth)) (fconv_init c) (no_args4 h)) = Some os /\ length os = length h /\
    forall n o y x, (n < N)%nat -> (o < pc_out (cv_pc c))%nat -> (y < ho)%nat -> (x < wo)%nat ->
      repeats m T0 (fan_in (cv_pc c, depth) * (2 ^ w * P)) (grid_layer m w (cv_pc c, depth) (seen c p H W (f n) y x) o) (lane4 os n o y x).
Proof. exact conv_repeats. Qed.
Print Assumptions C109_conv.

(** FSUHardsigmoid: twice the period, worth exactly half of the value plus one. *)
Theorem C109_sigmoid : forall m d T0 P v xs, 4 <= d -> bits xs -> (1 <= P)%nat -> repeats m T0 P v xs ->
  repeats m T0 (2 * P) ((v + 1) / 2) (outs (fsuhardsigmoid_step m d) (fsuhardsigmoid_init m d) xs).
Proof. exact sigmoid_repeats. Qed.
Print Assumptions C109_sigmoid.
Example C109_sigmoid_ex : repeats Bipolar 1 2 0 [1; 1; 0; 1; 0; 1; 0; 1] /\
  outs (fsuhardsigmoid_step Bipolar 4) (fsuhardsigmoid_init Bipolar 4) [1; 1; 0; 1; 0; 1; 0; 1] = [1; 1; 0; 1; 1; 1; 0; 1] /\
  (value Bipolar [1; 0; 1; 1]%Z == (0 + 1) / 2)%Q /\ ~ (value Bipolar [1; 0]%Z == (0 + 1) / 2)%Q.
Proof.
  split; [split; intros t Ht Hl; cbn in Hl; do 9 (destruct t as [|t]; [try lia; vm_compute; reflexivity|]); lia|].
  split; [vm_compute; reflexivity|]. split; [vm_compute; reflexivity|vm_compute; discriminate].
Qed.

(** FSUReLU of depth d + 1, the period shorter than 2^d: after at most 2^d + 1 periods the output repeats too, every j periods for some j, and is
    worth exactly the positive part. For longer periods it need not be (C79_relu_shallow). *)
Theorem C109_relu : forall d T0 P v xs, bits xs -> (1 <= P)%nat -> (P < 2 ^ d)%nat -> repeats Bipolar T0 P v xs ->
  exists a j, (1 <= j)%nat /\ (a + j <= 2 ^ d + 1)%nat /\
    repeats Bipolar (T0 + a * P) (j * P) (pos_part v) (outs (fsurelu_step d) (fsurelu_init d) xs).
Proof. exact relu_repeats. Qed.
Print Assumptions C109_relu.
(** Three cycles worth -1/3: the output repeats only every six, and any six are worth 0. *)
Example C109_relu_ex : repeats Bipolar 0 3 (- (1 # 3)) (concat (repeat [0; 0; 1] 5)) /\ (3 < 2 ^ 2)%nat /\
  outs (fsurelu_step 2) (fsurelu_init 2) (concat (repeat [0; 0; 1] 5)) = [0; 1; 1; 0; 0; 1; 0; 1; 1; 0; 0; 1; 0; 1; 1] /\
  (value Bipolar (firstn 6 (skipn 3 [0; 1; 1; 0; 0; 1; 0; 1; 1; 0; 0; 1; 0; 1; 1]%Z)) == pos_part (- (1 # 3)))%Q.
Proof.
  split; [split; intros t Ht Hl; cbn in Hl; do 16 (destruct t as [|t]; [try lia; vm_compute; reflexivity|]); lia|].
  split; [cbn; lia|]. split; [vm_compute; reflexivity|vm_compute; reflexivity].
Qed.

(** Layers in a row, however many. *)
Theorem C109_net : forall m w ls, Forall (whole_layer m w) ls -> forall n B T0 P h x, fitted n ls -> (1 <= B)%nat -> (1 <= P)%nat -> Forall (batch_ok B n) h ->
  (forall b i, (b < B)%nat -> (i < n)%nat -> repeats m T0 P (x b i) (lane h b i)) ->
  exists os, outputs (run_r (net_step (map plain ls)) (net_init (map plain ls)) h) = Some os /\ length os = length h /\
    forall b o, (b < B)%nat -> (o < width_out n ls)%nat -> repeats m T0 (net_period w ls P) (grid_net m w ls (x b) o) (lane os b o).
Proof. exact net_repeats. Qed.
Print Assumptions C109_net.

(** A fresh network run on generated inputs for one period emits streams worth exactly what the real network gives on the numbers the inputs
    and the parameters encode: nothing is lost to randomness, rounding or saturation. *)
Theorem C109_net_exact : forall m w ls, Forall (whole_layer m w) ls -> forall n B h v rngx (num : nat -> nat -> Z), fitted n ls -> (1 <= B)%nat -> Forall (batch_ok B n) h ->
  perm_seq v rngx -> length h = net_period w ls (2 ^ v) ->
  (forall b i, (b < B)%nat -> (i < n)%nat -> 0 <= num b i <= p2 v /\ lane h b i = bsgen_stream (num b i) rngx 0 (length h)) ->
  exists os, outputs (run_r (net_step (map plain ls)) (net_init (map plain ls)) h) = Some os /\ length os = length h /\
    forall b o, (b < B)%nat -> (o < width_out n ls)%nat -> (value m (lane os b o) == grid_net m w ls (fun i => grid_value m v (num b i)) o)%Q.
Proof. exact net_exact. Qed.
Print Assumptions C109_net_exact.

(** Two inputs and a bias, bipolar, 1-bit numbers; the inputs repeat every two cycles from the third cycle on. The output then repeats every
    3 * 2 * 2 cycles and is worth 2/3. *)
Definition ex_per : pc_cfg * Z :=
  ({| pc_mode := Bipolar; pc_wtc := false; pc_rng := [0; 1]; pc_in := 2; pc_out := 1; pc_weight := [[1; 2]]; pc_bias := Some [2] |}, 8).
Definition ex_per_h : list (list (list Z)) :=
  [[[0; 0]]; [[1; 0]]] ++ concat (repeat [[[1; 1]]; [[0; 1]]] 7).
Example C109_ex :
  whole_layer Bipolar 1 ex_per /\ fitted 2 [ex_per] /\ Forall (batch_ok 1 2) ex_per_h /\
  repeats Bipolar 2 2 0 (lane ex_per_h 0 0) /\ repeats Bipolar 2 2 1 (lane ex_per_h 0 1) /\
  net_period 1 [ex_per] 2 = 12%nat /\ (grid_net Bipolar 1 [ex_per] (fun i => nth i [0; 1]%Q 0%Q) 0 == 2 # 3)%Q /\
  outputs (run_r (net_step (map plain [ex_per])) (net_init (map plain [ex_per])) ex_per_h) =
    Some (map (fun z => [[z]]) [0; 1; 0; 1; 1; 1; 1; 1; 1; 0; 1; 1; 1; 1; 0; 1]) /\
  (value Bipolar (firstn 12 (skipn 2 [0; 1; 0; 1; 1; 1; 1; 1; 1; 0; 1; 1; 1; 1; 0; 1]%Z)) == 2 # 3)%Q /\
  ~ (value Bipolar (firstn 4 (skipn 2 [0; 1; 0; 1; 1; 1; 1; 1; 1; 0; 1; 1; 1; 1; 0; 1]%Z)) == 2 # 3)%Q.
Proof.
  assert (SH : pc_shape (fst ex_per)) by (unfold pc_shape; cbn; repeat split; repeat constructor).
  split.
  { split; [split; [exact SH|split; [cbn; lia|split; [reflexivity|split; [reflexivity|vm_compute; discriminate]]]]|].
    split; [reflexivity|]. split; [apply Permutation_refl|]. split.
    - intros o i Ho Hi. cbn in Ho, Hi. destruct o as [|o]; [|lia]. destruct i as [|[|i]]; [split; discriminate|split; discriminate|lia].
    - intros o Ho. cbn in Ho. destruct o as [|o]; [split; discriminate|lia]. }
  split; [split; [exact SH|split; [reflexivity|exact Logic.I]]|].
  split; [unfold ex_per_h; cbn; repeat (apply Forall_cons; [split; [reflexivity|repeat (apply Forall_cons || apply Forall_nil || split || reflexivity || (left; reflexivity) || (right; reflexivity))]|]); apply Forall_nil|].
  split; [split; intros t Ht Hl; cbn in Hl; do 17 (destruct t as [|t]; [try lia; vm_compute; reflexivity|]); lia|].
  split; [split; intros t Ht Hl; cbn in Hl; do 17 (destruct t as [|t]; [try lia; vm_compute; reflexivity|]); lia|].
  split; [reflexivity|]. split; [vm_compute; reflexivity|]. split; [vm_compute; reflexivity|]. split; [vm_compute; reflexivity|vm_compute; discriminate].
Qed.

(** A one-pixel image, always 1, under a window of two taps with weights 0 and 1 and a border of one pixel. The second row of windows sees the
    pixel; eight cycles make the results 1/2 and 0, elsewhere 0. *)
Definition ex_percv : conv_cfg :=
  {| cv_pc := {| pc_mode := Bipolar; pc_wtc := false; pc_rng := [0; 1]; pc_in := 2; pc_out := 1; pc_weight := [[1; 2]]; pc_bias := None |};
     cv_chan := 1; cv_kernel := (1%nat, 2%nat); cv_stride := (1%nat, 1%nat); cv_dil := (1%nat, 1%nat); cv_pad := PadNum 1 |}.
Definition ex_percv_os : option (list (list (list (list (list Z))))) :=
  outputs (run_r (fconv_step ex_percv (flin_acc_cfg (cv_pc ex_percv) None 8)) (fconv_init ex_percv) (no_args4 (repeat [[[[1]]]] 8))).
Example C109_conv_ex :
  whole_layer Bipolar 1 (cv_pc ex_percv, 8) /\ conv_geom ex_percv 1 1 1 3 2 /\ fan_in (cv_pc ex_percv, 8) = 2%nat /\
  map (fun yx => Qred (grid_layer Bipolar 1 (cv_pc ex_percv, 8) (seen ex_percv 1 1 1 (fun _ _ _ => 1%Q) (fst yx) (snd yx)) 0))
    [(0, 0); (0, 1); (1, 0); (1, 1); (2, 0); (2, 1)]%nat = [0; 0; 1 # 2; 0; 0; 0]%Q /\
  match ex_percv_os with None => False | Some os =>
    map (fun yx => Qred (value Bipolar (lane4 os 0 0 (fst yx) (snd yx)))) [(0, 0); (0, 1); (1, 0); (1, 1); (2, 0); (2, 1)]%nat = [0; 0; 1 # 2; 0; 0; 0]%Q /\
    Qred (value Bipolar (firstn 2 (lane4 os 0 0 1 0))) <> 1 # 2 end.
Proof.
  assert (SH : pc_shape (cv_pc ex_percv)) by (unfold pc_shape; cbn; repeat split; repeat constructor).
  split.
  { split; [split; [exact SH|split; [cbn; lia|split; [reflexivity|split; [reflexivity|vm_compute; discriminate]]]]|].
    split; [reflexivity|]. split; [apply Permutation_refl|]. split; [|exact Logic.I].
    intros o i Ho Hi. cbn in Ho, Hi. destruct o as [|o]; [|lia]. destruct i as [|[|i]]; [split; discriminate|split; discriminate|lia]. }
  split; [split; [exact SH|]; repeat split; cbn; lia|].
  split; [reflexivity|]. split; [vm_compute; reflexivity|]. vm_compute. split; [reflexivity|discriminate].
Qed.
