(** Property C102: FSUConv2d sees only windows; what follows for crops, strides, wrong pixels and negated images. *)
Require Import Verif.BaseLemmas Verif.ShiftSpec Verif.ShiftProof.
Open Scope Z_scope.

(** FSUConv2d, any mode, coding, scale and depth: what one position emits depends only on what the taps of its window see, whatever the image,
    the batch, the stride, the dilation, the border and the size around it. *)
Theorem C102_window : forall c1 c2 scale depth p q N1 N2 H1 H2 W1 W2 ho1 ho2 wo1 wo2 h1 h2,
  cv_pc c1 = cv_pc c2 -> cv_chan c1 = cv_chan c2 -> cv_kernel c1 = cv_kernel c2 ->
  conv_geom c1 p H1 W1 ho1 wo1 -> conv_geom c2 q H2 W2 ho2 wo2 -> (1 <= N1)%nat -> (1 <= N2)%nat ->
  Forall (tensor_ok bit N1 (cv_chan c1) H1 W1) h1 -> Forall (tensor_ok bit N2 (cv_chan c2) H2 W2) h2 -> length h1 = length h2 ->
  exists os1 os2,
    outputs (run_r (fconv_step c1 (flin_acc_cfg (cv_pc c1) scale depth)) (fconv_init c1) (no_args4 h1)) = Some os1 /\
    outputs (run_r (fconv_step c2 (flin_acc_cfg (cv_pc c2) scale depth)) (fconv_init c2) (no_args4 h2)) = Some os2 /\
    length os1 = length h1 /\ length os2 = length h2 /\
    forall n1 y1 x1 n2 y2 x2, (n1 < N1)%nat -> (y1 < ho1)%nat -> (x1 < wo1)%nat -> (n2 < N2)%nat -> (y2 < ho2)%nat -> (x2 < wo2)%nat ->
      (forall k i j, (k < cv_chan c1)%nat -> (i < fst (cv_kernel c1))%nat -> (j < snd (cv_kernel c1))%nat ->
         tap_stream c1 p H1 W1 h1 n1 y1 x1 k i j = tap_stream c2 q H2 W2 h2 n2 y2 x2 k i j) ->
      forall o, (o < pc_out (cv_pc c1))%nat -> lane4 os1 n1 o y1 x1 = lane4 os2 n2 o y2 x2.
Proof. exact conv_window. Qed.
Print Assumptions C102_window.

(** So the convolution of a part of an image is the part of the convolution, wherever the part starts at a multiple of the stride: moving
    the image moves the output. At the border it may differ. *)
Theorem C102_crop : forall c scale depth p N H1 H2 W1 W2 ho1 ho2 wo1 wo2 dy dx h1 h2,
  conv_geom c p H1 W1 ho1 wo1 -> conv_geom c p H2 W2 ho2 wo2 -> (1 <= N)%nat ->
  Forall (tensor_ok bit N (cv_chan c) H1 W1) h1 -> Forall (tensor_ok bit N (cv_chan c) H2 W2) h2 ->
  (dy * fst (cv_stride c) + H1 <= H2)%nat -> (dx * snd (cv_stride c) + W1 <= W2)%nat ->
  cropped N (cv_chan c) H1 W1 (dy * fst (cv_stride c)) (dx * snd (cv_stride c)) h1 h2 ->
  exists os1 os2,
    outputs (run_r (fconv_step c (flin_acc_cfg (cv_pc c) scale depth)) (fconv_init c) (no_args4 h1)) = Some os1 /\
    outputs (run_r (fconv_step c (flin_acc_cfg (cv_pc c) scale depth)) (fconv_init c) (no_args4 h2)) = Some os2 /\
    length os1 = length h1 /\ length os2 = length h2 /\
    forall n o y x, (n < N)%nat -> (o < pc_out (cv_pc c))%nat -> (y < ho1)%nat -> (x < wo1)%nat -> (dy + y < ho2)%nat -> (dx + x < wo2)%nat ->
      window_inside c p H1 W1 y x -> lane4 os1 n o y x = lane4 os2 n o (dy + y) (dx + x).
Proof. exact conv_crop. Qed.
Print Assumptions C102_crop.

(** A stride only picks: the layer emits what the layer with stride 1 emits at the multiples. *)
Theorem C102_stride : forall c scale depth p N H W ho wo h, conv_geom c p H W ho wo -> (1 <= N)%nat -> Forall (tensor_ok bit N (cv_chan c) H W) h ->
  exists ho1 wo1 os os1, conv_geom (with_stride (1%nat, 1%nat) c) p H W ho1 wo1 /\
    outputs (run_r (fconv_step c (flin_acc_cfg (cv_pc c) scale depth)) (fconv_init c) (no_args4 h)) = Some os /\
    outputs (run_r (fconv_step (with_stride (1%nat, 1%nat) c) (flin_acc_cfg (cv_pc c) scale depth)) (fconv_init (with_stride (1%nat, 1%nat) c)) (no_args4 h)) = Some os1 /\
    length os = length h /\ length os1 = length h /\
    forall n o y x, (n < N)%nat -> (o < pc_out (cv_pc c))%nat -> (y < ho)%nat -> (x < wo)%nat ->
      (y * fst (cv_stride c) < ho1)%nat /\ (x * snd (cv_stride c) < wo1)%nat /\
      lane4 os n o y x = lane4 os1 n o (y * fst (cv_stride c)) (x * snd (cv_stride c)).
Proof. exact conv_stride. Qed.
Print Assumptions C102_stride.

(** Wrong bits: an output is never off by more than the pixels under its window together are, divided by the number of entries and
    rounded up; pixels outside its window cannot reach it. *)
Theorem C102_faults : forall c depth p N H W ho wo h1 h2 k, sound (cv_pc c, depth) -> conv_geom c p H W ho wo -> (1 <= N)%nat ->
  Forall (tensor_ok bit N (cv_chan c) H W) h1 -> Forall (tensor_ok bit N (cv_chan c) H W) h2 -> length h1 = length h2 ->
  (forall n ch y x, (n < N)%nat -> (ch < cv_chan c)%nat -> (y < H)%nat -> (x < W)%nat -> within (k n ch y x) (lane4 h1 n ch y x) (lane4 h2 n ch y x)) ->
  exists os1 os2,
    outputs (run_r (fconv_step c (flin_acc_cfg (cv_pc c) None depth)) (fconv_init c) (no_args4 h1)) = Some os1 /\
    outputs (run_r (fconv_step c (flin_acc_cfg (cv_pc c) None depth)) (fconv_init c) (no_args4 h2)) = Some os2 /\
    length os1 = length h1 /\ length os2 = length h2 /\
    forall n o y x, (n < N)%nat -> (o < pc_out (cv_pc c))%nat -> (y < ho)%nat -> (x < wo)%nat ->
      within ((window_sum c p H W (k n) 0 y x + flin_entry (cv_pc c) - 1) / flin_entry (cv_pc c)) (lane4 os1 n o y x) (lane4 os2 n o y x).
Proof. exact conv_faults. Qed.
Print Assumptions C102_faults.

(** Unipolar: pixels that are never behind and weights that are nowhere smaller give outputs that are never behind. *)
Theorem C102_behind : forall c1 c2 d1 d2 p N H W ho wo h1 h2, layers_le (cv_pc c1, d1) (cv_pc c2, d2) ->
  cv_chan c1 = cv_chan c2 -> cv_kernel c1 = cv_kernel c2 -> cv_stride c1 = cv_stride c2 -> cv_dil c1 = cv_dil c2 ->
  conv_geom c1 p H W ho wo -> conv_geom c2 p H W ho wo -> (1 <= N)%nat ->
  Forall (tensor_ok bit N (cv_chan c1) H W) h1 -> Forall (tensor_ok bit N (cv_chan c1) H W) h2 -> length h1 = length h2 ->
  (forall n ch y x, (n < N)%nat -> (ch < cv_chan c1)%nat -> (y < H)%nat -> (x < W)%nat -> behind (lane4 h1 n ch y x) (lane4 h2 n ch y x)) ->
  exists os1 os2,
    outputs (run_r (fconv_step c1 (flin_acc_cfg (cv_pc c1) None d1)) (fconv_init c1) (no_args4 h1)) = Some os1 /\
    outputs (run_r (fconv_step c2 (flin_acc_cfg (cv_pc c2) None d2)) (fconv_init c2) (no_args4 h2)) = Some os2 /\
    length os1 = length h1 /\ length os2 = length h2 /\
    forall n o y x, (n < N)%nat -> (o < pc_out (cv_pc c1))%nat -> (y < ho)%nat -> (x < wo)%nat -> behind (lane4 os1 n o y x) (lane4 os2 n o y x).
Proof. exact conv_behind. Qed.
Print Assumptions C102_behind.

(** Bipolar without bias: the outputs on an image and on its negation have together as many ones as cycles passed, up to one bit, and up to
    one more where the window reaches over the border. *)
Theorem C102_negated : forall c depth p N H W ho wo h, odd_layer (cv_pc c, depth) -> conv_geom c p H W ho wo -> (1 <= N)%nat ->
  Forall (tensor_ok bit N (cv_chan c) H W) h ->
  exists os1 os2,
    outputs (run_r (fconv_step c (flin_acc_cfg (cv_pc c) None depth)) (fconv_init c) (no_args4 h)) = Some os1 /\
    outputs (run_r (fconv_step c (flin_acc_cfg (cv_pc c) None depth)) (fconv_init c) (no_args4 (negated_images h))) = Some os2 /\
    length os1 = length h /\ length os2 = length h /\
    forall n o y x t, (n < N)%nat -> (o < pc_out (cv_pc c))%nat -> (y < ho)%nat -> (x < wo)%nat -> (t <= length h)%nat ->
      Z.abs (Z.of_nat t - ones (firstn t (lane4 os1 n o y x)) - ones (firstn t (lane4 os2 n o y x))) <=
      1 + (window_sum c p H W (fun _ _ _ => 0) 1 y x + flin_entry (cv_pc c) - 1) / flin_entry (cv_pc c).
Proof. exact conv_negated. Qed.
Print Assumptions C102_negated.

Definition ex_cs (s : nat * nat) (p : nat) : conv_cfg :=
  {| cv_pc := {| pc_mode := Bipolar; pc_wtc := false; pc_rng := [0; 2; 1; 3]; pc_in := 4; pc_out := 1; pc_weight := [[1; 3; 0; 4]]; pc_bias := None |};
     cv_chan := 1; cv_kernel := (2%nat, 2%nat); cv_stride := s; cv_dil := (1%nat, 1%nat); cv_pad := PadNum p |}.
Definition ex_big : list (list (image Z)) :=
  [[[[[1; 0; 1]; [0; 1; 1]; [0; 1; 0]]]]; [[[[1; 1; 0]; [0; 0; 1]; [1; 1; 0]]]]; [[[[0; 0; 1]; [1; 1; 1]; [0; 0; 1]]]];
   [[[[1; 0; 0]; [1; 1; 0]; [0; 1; 1]]]]; [[[[1; 0; 1]; [0; 1; 0]; [1; 0; 0]]]]].
(** The two lower right rows and columns. *)
Definition ex_part : list (list (image Z)) :=
  [[[[[1; 1]; [1; 0]]]]; [[[[0; 1]; [1; 0]]]]; [[[[1; 1]; [0; 1]]]]; [[[[1; 0]; [1; 1]]]]; [[[[1; 0]; [0; 0]]]]].
Definition ex_conv (s : nat * nat) (p : nat) (h : list (list (image Z))) :=
  outputs (run_r (fconv_step (ex_cs s p) (flin_acc_cfg (cv_pc (ex_cs s p)) None 8)) (fconv_init (ex_cs s p)) (no_args4 h)).
Example C102_ex :
  ex_conv (1%nat, 1%nat) 0 ex_big =
    Some [[[[[0; 0]; [0; 0]]]]; [[[[1; 1]; [1; 0]]]]; [[[[0; 1]; [1; 1]]]]; [[[[0; 0]; [0; 0]]]]; [[[[1; 0]; [1; 1]]]]] /\
  cropped 1 1 2 2 1 1 ex_part ex_big /\
  ex_conv (1%nat, 1%nat) 0 ex_part = Some [[[[[0]]]]; [[[[0]]]]; [[[[1]]]]; [[[[0]]]]; [[[[1]]]]] /\
  ex_conv (1%nat, 1%nat) 1 ex_big =
    Some [[[[[0; 0; 0; 0]; [0; 0; 0; 0]; [0; 0; 0; 0]; [0; 0; 0; 0]]]]; [[[[1; 0; 1; 1]; [1; 1; 1; 0]; [0; 1; 0; 1]; [1; 1; 0; 1]]]];
          [[[[0; 1; 0; 0]; [0; 0; 1; 0]; [1; 1; 1; 0]; [0; 0; 1; 0]]]]; [[[[1; 0; 1; 1]; [1; 0; 0; 1]; [0; 0; 0; 0]; [0; 1; 0; 1]]]];
          [[[[1; 0; 1; 0]; [0; 1; 0; 1]; [1; 1; 1; 1]; [1; 0; 1; 0]]]]] /\
  ex_conv (2%nat, 2%nat) 1 ex_big =
    Some [[[[[0; 0]; [0; 0]]]]; [[[[1; 1]; [0; 0]]]]; [[[[0; 0]; [1; 1]]]]; [[[[1; 1]; [0; 0]]]]; [[[[1; 1]; [1; 1]]]]] /\
  ex_conv (1%nat, 1%nat) 0 (negated_images ex_big) =
    Some [[[[[0; 0]; [0; 0]]]]; [[[[0; 0]; [0; 1]]]]; [[[[1; 1]; [1; 0]]]]; [[[[1; 0]; [0; 1]]]]; [[[[0; 1]; [1; 1]]]]] /\
  window_sum (ex_cs (1%nat, 1%nat) 1) 1 3 3 (fun _ _ _ => 0) 1 0 1 = 2 /\
  conv_geom (ex_cs (1%nat, 1%nat) 0) 0 3 3 2 2 /\ conv_geom (ex_cs (1%nat, 1%nat) 0) 0 2 2 1 1 /\ conv_geom (ex_cs (2%nat, 2%nat) 1) 1 3 3 2 2.
Proof.
  split; [vm_compute; reflexivity|]. split.
  { split; [reflexivity|]. intros t n k y x Ht Hn Hk Hy Hx. replace n with 0%nat by lia. replace k with 0%nat by lia. cbn [length ex_part] in Ht.
    do 5 (destruct t as [|t]; [do 2 (destruct y as [|y]; [do 2 (destruct x as [|x]; [reflexivity|]); lia|]); lia|]). lia. }
  do 5 (split; [vm_compute; reflexivity|]).
  repeat split; cbn; try lia; repeat constructor.
Qed.
