(** Properties C34 (convolution), C35 and C57: the unary convolutions of /repo/kernel/conv.py. *)
From Coq Require Import String.
Require Import Verif.BaseLemmas Verif.KernelModel Verif.UtilsModel Verif.LinearModel Verif.LinearProof Verif.ConvModel Verif.ConvProof.
Open Scope Z_scope.
Ltac tensors := unfold tensor_ok, bit;
  repeat first [reflexivity | apply Forall_nil | apply Forall_cons | (left; reflexivity) | (right; reflexivity) | split].

(** C35. FSUConv2dPC on a history of tensors is FSULinearPC on the history of windows, whose entries outside the image are
    the border bit of the cycle. *)
Theorem C35_windows : forall c p N H W ho wo h, conv_geom c p H W ho wo -> (1 <= N)%nat ->
  Forall (tensor_ok bit N (cv_chan c) H W) h ->
  exists g ys os,
    length g = length h /\ Forall (batch_ok (N * (ho * wo)) (pc_in (cv_pc c))) g /\
    (forall t n y x k i j, (t < length h)%nat -> (n < N)%nat -> (y < ho)%nat -> (x < wo)%nat ->
       (k < cv_chan c)%nat -> (i < fst (cv_kernel c))%nat -> (j < snd (cv_kernel c))%nat ->
       entry2 (nth t g []) (row_index ho wo n y x) (tap_index (fst (cv_kernel c)) (snd (cv_kernel c)) k i j) =
       surrounded (border_bit (pc_mode (cv_pc c)) t) H W (nth t h []) n k
         (Z.of_nat (y * fst (cv_stride c) + i * fst (cv_dil c)) - Z.of_nat p)
         (Z.of_nat (x * snd (cv_stride c) + j * snd (cv_dil c)) - Z.of_nat p)) /\
    outputs (run_r (pc_step (cv_pc c)) (pc_init (cv_pc c)) g) = Some ys /\
    outputs (run_r (conv_step c) (conv_init c) h) = Some os /\ length os = length h /\
    forall t, (t < length h)%nat -> tensor_ok (fun z => 0 <= z <= flin_entry (cv_pc c)) N (pc_out (cv_pc c)) ho wo (nth t os []) /\
      forall n o y x, (n < N)%nat -> (o < pc_out (cv_pc c))%nat -> (y < ho)%nat -> (x < wo)%nat ->
        entry4 0 (nth t os []) n o y x = entry2 (nth t ys []) (row_index ho wo n y x) o.
Proof. exact conv_windows. Qed.
Print Assumptions C35_windows.
(** FSUConv2d is FSULinear on the windows. *)
Theorem C35_fsu_windows : forall c a p N H W ho wo h, conv_geom c p H W ho wo -> (1 <= N)%nat ->
  Forall (tensor_ok bit N (cv_chan c) H W) (fc_inputs h) ->
  exists g ys os,
    map (fun x => snd (fst x)) g = map (fun x => snd (fst x)) h /\ map snd g = map snd h /\
    Forall (batch_ok (N * (ho * wo)) (pc_in (cv_pc c))) (fl_inputs g) /\
    (forall t n y x k i j, (t < length h)%nat -> (n < N)%nat -> (y < ho)%nat -> (x < wo)%nat ->
       (k < cv_chan c)%nat -> (i < fst (cv_kernel c))%nat -> (j < snd (cv_kernel c))%nat ->
       entry2 (nth t (fl_inputs g) []) (row_index ho wo n y x) (tap_index (fst (cv_kernel c)) (snd (cv_kernel c)) k i j) =
       surrounded (border_bit (pc_mode (cv_pc c)) t) H W (nth t (fc_inputs h) []) n k
         (Z.of_nat (y * fst (cv_stride c) + i * fst (cv_dil c)) - Z.of_nat p)
         (Z.of_nat (x * snd (cv_stride c) + j * snd (cv_dil c)) - Z.of_nat p)) /\
    outputs (run_r (flin_step (cv_pc c) a) (flin_init (cv_pc c)) g) = Some ys /\
    outputs (run_r (fconv_step c a) (fconv_init c) h) = Some os /\ length os = length h /\
    forall t, (t < length h)%nat -> tensor_ok (fun _ => True) N (pc_out (cv_pc c)) ho wo (nth t os []) /\
      forall n o y x, (n < N)%nat -> (o < pc_out (cv_pc c))%nat -> (y < ho)%nat -> (x < wo)%nat ->
        entry4 0 (nth t os []) n o y x = entry2 (nth t ys []) (row_index ho wo n y x) o.
Proof. exact fconv_windows. Qed.
Print Assumptions C35_fsu_windows.
(** Every count is the sum of what one static multiplier per tap emits. *)
Theorem C35_rate : forall c p N H W ho wo h, conv_geom c p H W ho wo -> rng_ok (cv_pc c) -> pc_wtc (cv_pc c) = false -> (1 <= N)%nat ->
  Forall (tensor_ok bit N (cv_chan c) H W) h ->
  exists os, outputs (run_r (conv_step c) (conv_init c) h) = Some os /\ length os = length h /\
    forall t n o y x, (t < length h)%nat -> (n < N)%nat -> (o < pc_out (cv_pc c))%nat -> (y < ho)%nat -> (x < wo)%nat ->
      entry4 0 (nth t os []) n o y x =
      sum_taps (cv_chan c) (fst (cv_kernel c)) (snd (cv_kernel c)) (fun k i j =>
        nth t (outs (fsumul_static_step (pc_mode (cv_pc c))
                       (entry2 (pc_weight (cv_pc c)) o (tap_index (fst (cv_kernel c)) (snd (cv_kernel c)) k i j)) (pc_rng (cv_pc c)))
                    fsumul_static_init (tap_stream c p H W h n y x k i j)) 0)
      + match pc_bias (cv_pc c) with None => 0 | Some bs => bsgen_bit (nth o bs 0) (pc_rng (cv_pc c)) (Z.of_nat t) end.
Proof. exact conv_rate. Qed.
Print Assumptions C35_rate.
Theorem C35_temporal : forall c p N H W ho wo h, conv_geom c p H W ho wo -> pc_wtc (cv_pc c) = true -> (1 <= N)%nat ->
  Forall (tensor_ok bit N (cv_chan c) H W) h ->
  exists os, outputs (run_r (conv_step c) (conv_init c) h) = Some os /\ length os = length h /\
    forall t n o y x, (t < length h)%nat -> (n < N)%nat -> (o < pc_out (cv_pc c))%nat -> (y < ho)%nat -> (x < wo)%nat ->
      entry4 0 (nth t os []) n o y x =
      sum_taps (cv_chan c) (fst (cv_kernel c)) (snd (cv_kernel c)) (fun k i j =>
        product_bit (pc_mode (cv_pc c)) (nth t (tap_stream c p H W h n y x k i j) 0)
          (bsgen_bit (entry2 (pc_weight (cv_pc c)) o (tap_index (fst (cv_kernel c)) (snd (cv_kernel c)) k i j)) (pc_rng (cv_pc c)) (Z.of_nat t)))
      + match pc_bias (cv_pc c) with None => 0 | Some bs => bsgen_bit (nth o bs 0) (pc_rng (cv_pc c)) (Z.of_nat t) end.
Proof. exact conv_temporal. Qed.
Print Assumptions C35_temporal.
(** The ones of FSUConv2d at the default scale. *)
Theorem C35_fsu_floor : forall c depth p N H W ho wo h, conv_geom c p H W ho wo -> rng_ok (cv_pc c) -> pc_wtc (cv_pc c) = false -> (1 <= N)%nat ->
  0 < flin_entry (cv_pc c) -> (inject_Z (2 * flin_entry (cv_pc c) - 1) <= qpow2 (depth - 2))%Q ->
  Forall (tensor_ok bit N (cv_chan c) H W) h ->
  exists os, outputs (run_r (fconv_step c (flin_acc_cfg (cv_pc c) None depth)) (fconv_init c) (no_args4 h)) = Some os /\ length os = length h /\
    forall n o y x, (n < N)%nat -> (o < pc_out (cv_pc c))%nat -> (y < ho)%nat -> (x < wo)%nat ->
      ones (lane4 os n o y x) =
      (sum_taps (cv_chan c) (fst (cv_kernel c)) (snd (cv_kernel c)) (fun k i j =>
         ones (outs (fsumul_static_step (pc_mode (cv_pc c))
                       (entry2 (pc_weight (cv_pc c)) o (tap_index (fst (cv_kernel c)) (snd (cv_kernel c)) k i j)) (pc_rng (cv_pc c)))
                    fsumul_static_init (tap_stream c p H W h n y x k i j)))
       + match pc_bias (cv_pc c) with None => 0 | Some bs => ones (bsgen_stream (nth o bs 0) (pc_rng (cv_pc c)) 0 (length h)) end)
      / (Z.of_nat (cv_chan c * (fst (cv_kernel c) * snd (cv_kernel c))) + match pc_bias (cv_pc c) with None => 0 | Some _ => 1 end).
Proof. exact fconv_rate. Qed.
Print Assumptions C35_fsu_floor.
(** The stream of a tap outside the image ... *)
Theorem C35_border_stream : forall c p H W h n y x k i j,
  let yy := Z.of_nat (y * fst (cv_stride c) + i * fst (cv_dil c)) - Z.of_nat p in
  let xx := Z.of_nat (x * snd (cv_stride c) + j * snd (cv_dil c)) - Z.of_nat p in
  (yy < 0 \/ Z.of_nat H <= yy \/ xx < 0 \/ Z.of_nat W <= xx) ->
  tap_stream c p H W h n y x k i j =
    match pc_mode (cv_pc c) with Unipolar => repeat 0 (length h) | Bipolar => alternating (length h) end.
Proof. exact border_stream. Qed.
Print Assumptions C35_border_stream.
(** ... has bipolar value zero up to the last bit ... *)
Theorem C35_border_zero : forall n, walk (alternating n) = - (Z.of_nat n mod 2).
Proof. exact alternating_walk. Qed.
Print Assumptions C35_border_zero.
(** ... and so has its product with any weight over whole double periods. *)
Theorem C35_border_product : forall w B rng T, perm_seq w rng -> 0 <= B <= p2 w -> (2 * p2 w | Z.of_nat T) ->
  walk (outs (fsumul_static_step Bipolar B rng) fsumul_static_init (alternating T)) = 0.
Proof. exact border_product. Qed.
Print Assumptions C35_border_product.
(** C57. A pair given as padding is read as (left, right) by the padding module and as (height, width) by the shape helper:
    the layer raises when the two counts of positions differ ... *)
Theorem C57_pair_padding : forall c a b N H W input,
  cv_pad c = PadPair a b -> (1 <= N)%nat -> (1 <= cv_chan c)%nat -> (1 <= H)%nat ->
  (1 <= fst (cv_kernel c))%nat -> (1 <= snd (cv_kernel c))%nat -> (1 <= fst (cv_stride c))%nat -> (1 <= snd (cv_stride c))%nat ->
  tensor_ok bit N (cv_chan c) H W input ->
  let pos n pr := positions (Z.of_nat n) (Z.of_nat (pr (cv_kernel c))) (Z.of_nat (pr (cv_stride c))) (Z.of_nat (pr (cv_dil c))) in
  pos H fst * pos (W + a + b)%nat snd <> pos (H + 2 * a)%nat fst * pos (W + 2 * b)%nat snd ->
  conv_step c (conv_init c) input = Err RuntimeError.
Proof. exact conv_pair_padding. Qed.
Print Assumptions C57_pair_padding.
(** ... for a padding (p, p), p >= 1, and unit strides, on every image. *)
Theorem C57_pair_square : forall c p N H W input,
  cv_pad c = PadPair p p -> (1 <= p)%nat -> (1 <= N)%nat -> (1 <= cv_chan c)%nat -> (1 <= H)%nat ->
  (1 <= fst (cv_kernel c))%nat -> (1 <= snd (cv_kernel c))%nat -> cv_stride c = (1%nat, 1%nat) ->
  tensor_ok bit N (cv_chan c) H W input -> conv_step c (conv_init c) input = Err RuntimeError.
Proof. exact conv_pair_square. Qed.
Print Assumptions C57_pair_square.
Definition ex_cv (m : mode) (pad : convpad) : conv_cfg :=
  {| cv_pc := {| pc_mode := m; pc_wtc := false; pc_rng := [0; 2; 3; 1]; pc_in := 4; pc_out := 1;
                 pc_weight := [[1; 3; 4; 2]]; pc_bias := Some [2] |};
     cv_chan := 1; cv_kernel := (2%nat, 2%nat); cv_stride := (2%nat, 1%nat); cv_dil := (1%nat, 1%nat); cv_pad := pad |}.
Definition ex_images : list (list (image Z)) := [[[[[1; 0]; [1; 1]]]]; [[[[0; 0]; [1; 0]]]]; [[[[1; 1]; [1; 0]]]]; [[[[1; 0]; [1; 1]]]]].
Example C35_ex : conv_geom (ex_cv Bipolar (PadNum 1)) 1 2 2 2 3 /\ rng_ok (cv_pc (ex_cv Bipolar (PadNum 1))) /\
  Forall (tensor_ok bit 1 1 2 2) ex_images /\
  outputs (run_r (conv_step (ex_cv Bipolar (PadNum 1))) (conv_init (ex_cv Bipolar (PadNum 1))) ex_images)
    = Some [[[[[2; 2; 1]; [2; 3; 2]]]]; [[[[3; 3; 3]; [4; 2; 3]]]]; [[[[1; 3; 3]; [2; 1; 2]]]]; [[[[3; 4; 2]; [3; 3; 3]]]]] /\
  outputs (run_r (fconv_step (ex_cv Bipolar (PadNum 1)) (flin_acc_cfg (cv_pc (ex_cv Bipolar (PadNum 1))) None 8))
             (fconv_init (ex_cv Bipolar (PadNum 1))) (no_args4 ex_images))
    = Some [[[[[0; 0; 0]; [0; 0; 0]]]]; [[[[1; 1; 0]; [1; 1; 1]]]]; [[[[0; 0; 1]; [0; 0; 0]]]]; [[[[0; 1; 0]; [1; 0; 1]]]]].
Proof.
  split; [|split; [|split; [|split]]].
  - unfold conv_geom. cbn. repeat split; try lia; repeat constructor.
  - unfold rng_ok. cbn. lia.
  - tensors.
  - vm_compute. reflexivity.
  - vm_compute. reflexivity.
Qed.
Example C57_ex_pair : conv_step (ex_cv Unipolar (PadPair 1 1)) (conv_init (ex_cv Unipolar (PadPair 1 1))) [[[[1; 0]; [1; 1]]]] = Err RuntimeError.
Proof. vm_compute. reflexivity. Qed.
Example C35_ex_border : perm_seq 2 [0; 2; 3; 1] /\ alternating 8 = [0; 1; 0; 1; 0; 1; 0; 1] /\
  outs (fsumul_static_step Bipolar 3 [0; 2; 3; 1]) fsumul_static_init (alternating 8) = [0; 1; 0; 1; 1; 0; 0; 1].
Proof. split; [|split; vm_compute; reflexivity].
  change (Permutation ([0; 2; 3] ++ [1]) (0 :: [1] ++ [2; 3])). apply perm_skip. apply (Permutation_app_comm [2; 3] [1]).
Qed.

(** C34: the convolution constructors. *)
Theorem C34_conv_new : forall ext ci co kernel stride pad dil bias we be winit width m_name r_name dimr m k,
  mode_parse m_name = Ok m -> rng_parse r_name = Ok k -> conv_args_ok ci co (fst kernel) (snd kernel) bias we be winit ->
  match conv_new ext ci co kernel stride pad dil 1 bias "zeros" we be winit width m_name r_name dimr with
  | Err e => e = AttributeError /\ bias = true /\ be = None
  | Ok c => ~ (bias = true /\ be = None) /\ pc_shape (cv_pc c) /\ pc_mode (cv_pc c) = m /\ pc_wtc (cv_pc c) = is_tc k /\
            pc_in (cv_pc c) = (ci * (fst kernel * snd kernel))%nat /\ pc_out (cv_pc c) = co /\ (pc_bias (cv_pc c) = None <-> bias = false) /\
            cv_chan c = ci /\ cv_kernel c = kernel /\ cv_stride c = stride /\ cv_dil c = dil /\ cv_pad c = pad /\
            forall q z i j, (q < co)%nat -> (z < ci)%nat -> (i < fst kernel)%nat -> (j < snd kernel)%nat ->
              entry2 (pc_weight (cv_pc c)) q (tap_index (fst kernel) (snd kernel) z i j) =
              match we with Some w => bingen m width (entry4 0%Q w q z i j) | None => Qceiling (entry4 0%Q winit q z i j) end
  end.
Proof. exact conv_new_outcome. Qed.
Print Assumptions C34_conv_new.
Theorem C34_conv_accepts : forall ext ci co kernel stride pad dil groups bias pmode we be winit width m_name r_name dimr c,
  conv_new ext ci co kernel stride pad dil groups bias pmode we be winit width m_name r_name dimr = Ok c ->
  groups = 1%nat /\ pmode = "zeros"%string /\
  (lower m_name = "unipolar"%string \/ lower m_name = "bipolar"%string) /\
  (exists k, rng_parse r_name = Ok k) /\
  match we with None => True | Some w => shape4 co ci (fst kernel) (snd kernel) w = true end /\
  (bias = true -> exists b, be = Some b /\ length b = co).
Proof. exact conv_new_accepts. Qed.
Print Assumptions C34_conv_accepts.
Theorem C34_fsuconv_accepts : forall ext ci co kernel stride pad dil groups bias pmode we be winit width m_name r_name dimr scale depth c a,
  fconv_new ext ci co kernel stride pad dil groups bias pmode we be winit width m_name r_name dimr scale depth = Ok (c, a) ->
  conv_new ext ci co kernel stride pad dil groups bias pmode we be winit width m_name r_name dimr = Ok c /\
  forall q k, lower m_name = "bipolar"%string -> rng_parse r_name = Ok k -> is_tc k = true -> scale = Some q ->
    (q == inject_Z (Z.of_nat (ci * (fst kernel * snd kernel)) + b2z bias))%Q.
Proof. exact fconv_new_accepts. Qed.
Print Assumptions C34_fsuconv_accepts.
(** Likewise for the linear layers: whatever is constructed had acceptable arguments. *)
Theorem C34_pc_accepts : forall ext ni no bias we be winit width m_name r_name dimr c,
  pc_new ext ni no bias we be winit width m_name r_name dimr = Ok c ->
  (lower m_name = "unipolar"%string \/ lower m_name = "bipolar"%string) /\
  (exists k, rng_parse r_name = Ok k) /\
  match we with None => True | Some w => shape2 no ni w = true end /\
  (bias = true -> exists b, be = Some b /\ length b = no).
Proof. exact pc_new_accepts. Qed.
Print Assumptions C34_pc_accepts.
Theorem C34_linear_accepts : forall ext ni no bias we be winit width m_name r_name dimr scale depth c a,
  flin_new ext ni no bias we be winit width m_name r_name dimr scale depth = Ok (c, a) ->
  pc_new ext ni no bias we be winit width m_name r_name dimr = Ok c /\
  forall q k, lower m_name = "bipolar"%string -> rng_parse r_name = Ok k -> is_tc k = true -> scale = Some q ->
    (q == inject_Z (Z.of_nat ni + b2z bias))%Q.
Proof. exact flin_new_accepts. Qed.
Print Assumptions C34_linear_accepts.
Theorem C34_fsuconv_new : forall ext ci co kernel stride pad dil bias we be winit width m_name r_name dimr scale depth m k,
  mode_parse m_name = Ok m -> rng_parse r_name = Ok k -> conv_args_ok ci co (fst kernel) (snd kernel) bias we be winit ->
  (scale = None \/ m = Unipolar \/ is_tc k = false) ->
  match fconv_new ext ci co kernel stride pad dil 1 bias "zeros" we be winit width m_name r_name dimr scale depth with
  | Err e => e = AttributeError /\ bias = true /\ be = None
  | Ok (c, a) => conv_new ext ci co kernel stride pad dil 1 bias "zeros" we be winit width m_name r_name dimr = Ok c /\
                 a = flin_acc_cfg (cv_pc c) scale depth
  end.
Proof. exact fconv_new_outcome. Qed.
Print Assumptions C34_fsuconv_new.
Definition ex_ext4 : rng_ext :=
  {| ext_dirvec := fun _ j => p2 (29 - j); ext_lfsr_next := fun s => s; ext_lfsr_init := []; ext_randperm := [] |}.
Example C34_ex_conv : let w := [[[[1 # 2; 3 # 4]%Q]; [[0; 1]%Q]]] in let k := (1%nat, 2%nat) in let one := (1%nat, 1%nat) in
  conv_args_ok 2 1 1 2 true (Some w) None [] /\
  conv_new ex_ext4 2 1 k one (PadNum 0) one 1 true "zeros" (Some w) None [] 2 "unipolar" "Sobol" 1 = Err AttributeError /\
  conv_new ex_ext4 2 1 k one (PadNum 0) one 1 false "zeros" (Some w) None [] 2 "unipolar" "Sobol" 1 =
    Ok {| cv_pc := {| pc_mode := Unipolar; pc_wtc := false; pc_rng := [0; 2; 3; 1]; pc_in := 4; pc_out := 1;
                      pc_weight := [[2; 3; 0; 4]]; pc_bias := None |};
          cv_chan := 2; cv_kernel := k; cv_stride := one; cv_dil := one; cv_pad := PadNum 0 |} /\
  fconv_new ex_ext4 2 1 k one (PadNum 0) one 1 true "zeros" (Some w) None [] 2 "unipolar" "Sobol" 1 None 12 = Err AttributeError.
Proof. cbn zeta. repeat split; vm_compute; reflexivity. Qed.
Example C34_ex_rejects : let w := [[[[1 # 2; 3 # 4]]; [[-1 # 1; 1 # 1]]]]%Q in let k := (1, 2)%nat in let one := (1, 1)%nat in
  conv_new ex_ext4 2 2 k one (PadNum 0) one 2 false "zeros" (Some w) None [] 2 "unipolar" "Sobol" 1 = Err AssertionError /\
  conv_new ex_ext4 2 1 k one (PadNum 0) one 1 false "reflect" (Some w) None [] 2 "unipolar" "Sobol" 1 = Err AssertionError /\
  fconv_new ex_ext4 2 1 k one (PadNum 0) one 1 false "zeros" (Some w) None [] 2 "Bipolar" "TC" 1 (Some 3%Q) 12 = Err AssertionError /\
  (exists c, fconv_new ex_ext4 2 1 k one (PadNum 0) one 1 false "zeros" (Some w) None [] 2 "Bipolar" "TC" 1 (Some 4%Q) 12 = Ok c) /\
  flin_new ex_ext4 2 1 false (Some [[1 # 2; 3 # 4]%Q]) None [] 2 "bipolar" "race10" 1 (Some 3%Q) 12 = Err AssertionError /\
  pc_new ex_ext4 2 1 false (Some [[1 # 2; 3 # 4; 1]%Q]) None [] 2 "bipolar" "sobol" 1 = Err AssertionError.
Proof. cbn zeta. repeat split; try (vm_compute; reflexivity). eexists. vm_compute. reflexivity. Qed.
