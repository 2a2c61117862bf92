(** Property C76: what streams, products and layers are worth after any number of cycles. *)
From Coq Require Import String Lqa.
Require Import Verif.BaseLemmas Verif.SobolProof Verif.GenModel Verif.KernelModel Verif.MetricModel
  Verif.LinearModel Verif.LinearProof Verif.ConvModel Verif.ConvProof
  Verif.NameSpec Verif.NewSpec Verif.ConvErrSpec Verif.ProgSpec Verif.ProgProof.
Open Scope string_scope. Open Scope list_scope. Open Scope Z_scope.

(** A Sobol-driven BSGen: half a grid step plus w bits, at every cycle. *)
Theorem C76_bsgen : forall m ext w d s n, (w <= 30)%nat -> dirvec_ok 30 (ext_dirvec ext d) -> src_ok m s ->
  progresses m (grid_step m w / 2) (inject_Z (Z.of_nat w)) s (bsgen_stream (bingen m w s) (rng_seq ext KSobol w d) 0 n).
Proof. exact bsgen_progress. Qed.
Print Assumptions C76_bsgen.
(** The static multiplier: the two sequences may be the same one. *)
Theorem C76_mul : forall m ext w d extx dx x y n, (w <= 30)%nat -> dirvec_ok 30 (ext_dirvec ext d) -> dirvec_ok 30 (ext_dirvec extx dx) ->
  src_ok m x -> src_ok m y ->
  progresses m (grid_step m w) (product_slack m w) (x * y)
    (outs (fsumul_static_step m (bingen m w y) (rng_seq ext KSobol w d)) fsumul_static_init
          (bsgen_stream (bingen m w x) (rng_seq extx KSobol w dx) 0 n)).
Proof. exact mul_progress. Qed.
Print Assumptions C76_mul.
(** FSULinear as constructed, at the default scale: the bound does not depend on the number of inputs. *)
Theorem C76_linear : forall ext ni no bias we be winit w m_name r_name dimr depth c a m,
  flin_new ext ni no bias (Some we) be winit w m_name r_name dimr None depth = Ok (c, a) ->
  names_mode m_name m -> named r_name ["sobol"; "rc"] -> (1 <= ni)%nat -> (1 <= w <= 30)%nat -> dirvec_ok 30 (ext_dirvec ext dimr) ->
  Forall (Forall (src_ok m)) we -> src_opt m be -> (inject_Z (2 * (Z.of_nat ni + b2z bias) - 1) <= Qpower 2 (depth - 2))%Q ->
  forall B h extx dimx x, (1 <= B)%nat -> Forall (batch_ok B ni) h ->
  (forall b i, (b < B)%nat -> (i < ni)%nat -> dirvec_ok 30 (ext_dirvec extx (dimx b i)) /\ src_ok m (x b i) /\
     lane h b i = bsgen_stream (bingen m w (x b i)) (rng_seq extx KSobol w (dimx b i)) 0 (List.length h)) ->
  exists os, outputs (run_r (flin_step c a) (flin_init c) (no_args h)) = Some os /\ List.length os = List.length h /\ Forall (batch_ok B no) os /\
  forall b o, (b < B)%nat -> (o < no)%nat ->
    progresses m (grid_step m w) (product_slack m w + 1)
      ((dotq ni (x b) (qentry we o) + bias_entry (if bias then be else None) o) / inject_Z (Z.of_nat ni + b2z bias)) (lane os b o).
Proof. exact linear_progress. Qed.
Print Assumptions C76_linear.
(** FSUConv2d likewise, against the convolution of the real image with a border of zeros. *)
Theorem C76_conv : forall ext C no kernel stride p dil groups bias pm we be winit w m_name r_name dimr depth c a m,
  fconv_new ext C no kernel stride (PadNum p) dil groups bias pm (Some we) be winit w m_name r_name dimr None depth = Ok (c, a) ->
  names_mode m_name m -> named r_name ["sobol"; "rc"] -> (1 <= w <= 30)%nat -> dirvec_ok 30 (ext_dirvec ext dimr) ->
  tensor_ok (src_ok m) no C (fst kernel) (snd kernel) we -> src_opt m be ->
  (inject_Z (2 * (Z.of_nat (taps C kernel) + b2z bias) - 1) <= Qpower 2 (depth - 2))%Q ->
  forall N H W ho wo h extx dimx img, conv_sizes kernel stride dil p C H W ho wo -> (1 <= N)%nat ->
  tensor_ok (src_ok m) N C H W img -> Forall (tensor_ok bit N C H W) h ->
  (forall n k y x, (n < N)%nat -> (k < C)%nat -> (y < H)%nat -> (x < W)%nat -> dirvec_ok 30 (ext_dirvec extx (dimx n k y x)) /\
     lane4 h n k y x = bsgen_stream (bingen m w (entry4 0%Q img n k y x)) (rng_seq extx KSobol w (dimx n k y x)) 0 (List.length h)) ->
  exists os, outputs (run_r (fconv_step c a) (fconv_init c) (no_args4 h)) = Some os /\ List.length os = List.length h /\ Forall (tensor_ok bit N no ho wo) os /\
  forall n o y x, (n < N)%nat -> (o < no)%nat -> (y < ho)%nat -> (x < wo)%nat ->
    progresses m (grid_step m w) (product_slack m w + 1)
      ((conv_entry kernel stride dil (p, p) C H W img we n o y x + bias_entry (if bias then be else None) o) /
       inject_Z (Z.of_nat (taps C kernel) + b2z bias)) (lane4 os n o y x).
Proof. exact conv_progress. Qed.
Print Assumptions C76_conv.
(** What progresses settles: the last cycle at which Stability finds the error above the threshold is bounded, whatever the length. *)
Theorem C76_settles : forall m q K v scale source thr xs, bits xs -> xs <> [] -> progresses m q K v xs -> (0 <= K)%Q ->
  (qclamp (-1) 1 (source / scale) == v)%Q -> (q < thr)%Q ->
  (inject_Z (sb_cts (stab_monitors m scale source thr stab_init xs)) <= span m * K / (thr - q))%Q.
Proof. exact settles. Qed.
Print Assumptions C76_settles.
Theorem C76_linear_settles : forall ext ni no bias we be winit w m_name r_name dimr depth c a m,
  flin_new ext ni no bias (Some we) be winit w m_name r_name dimr None depth = Ok (c, a) ->
  names_mode m_name m -> named r_name ["sobol"; "rc"] -> (1 <= ni)%nat -> (1 <= w <= 30)%nat -> dirvec_ok 30 (ext_dirvec ext dimr) ->
  Forall (Forall (src_ok m)) we -> src_opt m be -> (inject_Z (2 * (Z.of_nat ni + b2z bias) - 1) <= Qpower 2 (depth - 2))%Q ->
  forall B h extx dimx x, (1 <= B)%nat -> Forall (batch_ok B ni) h -> h <> [] ->
  (forall b i, (b < B)%nat -> (i < ni)%nat -> dirvec_ok 30 (ext_dirvec extx (dimx b i)) /\ src_ok m (x b i) /\
     lane h b i = bsgen_stream (bingen m w (x b i)) (rng_seq extx KSobol w (dimx b i)) 0 (List.length h)) ->
  exists os, outputs (run_r (flin_step c a) (flin_init c) (no_args h)) = Some os /\
  forall b o thr, (b < B)%nat -> (o < no)%nat -> (grid_step m w < thr)%Q ->
    let exact := ((dotq ni (x b) (qentry we o) + bias_entry (if bias then be else None) o) / inject_Z (Z.of_nat ni + b2z bias))%Q in
    (inject_Z (sb_cts (stab_monitors m 1 exact thr stab_init (lane os b o))) <= span m * (product_slack m w + 1) / (thr - grid_step m w))%Q.
Proof. exact linear_settles. Qed.
Print Assumptions C76_linear_settles.
(** Temporal coding gains nothing from more cycles until its ones are over: the value is 1 whatever is encoded. *)
Theorem C76_race_early : forall m ext w d B t, B <= p2 w -> (1 <= t)%nat -> Z.of_nat t <= B ->
  (value m (bsgen_stream B (rng_seq ext KAsc w d) 0 t) == 1)%Q.
Proof. exact race_early. Qed.
Print Assumptions C76_race_early.

Definition ex_ext : rng_ext :=
  {| ext_dirvec := fun _ j => p2 (29 - j); ext_lfsr_next := fun s => s; ext_lfsr_init := []; ext_randperm := [] |}.
Definition ex_x (i : nat) : Q := nth i [1 # 2; - (3 # 4)]%Q 0%Q.
(** Input and weights driven by the same dimension: (1/2 * 1/2 + 3/4 * 3/4 - 1/4) / 3 = 3/16 read off as 1/6 after 24 cycles. *)
Definition ex_h : list (list (list Z)) :=
  map (fun t => [map (fun i => bsgen_bit (bingen Bipolar 3 (ex_x i)) (rng_seq ex_ext KSobol 3 1) (Z.of_nat t)) (seq 0 2)]) (seq 0 24).
Example C76_ex :
  dirvec_ok 30 (ext_dirvec ex_ext 1) /\ Forall (batch_ok 1 2) ex_h /\
  (forall b i, (b < 1)%nat -> (i < 2)%nat -> src_ok Bipolar (ex_x i) /\
     lane ex_h b i = bsgen_stream (bingen Bipolar 3 (ex_x i)) (rng_seq ex_ext KSobol 3 1) 0 24) /\
  exists c a os, flin_new ex_ext 2 1 true (Some [[1 # 2; - (3 # 4)]%Q]) (Some [- (1 # 4)]%Q) [] 3 "Bipolar" "Sobol" 1 None 10 = Ok (c, a) /\
    outputs (run_r (flin_step c a) (flin_init c) (no_args ex_h)) = Some os /\
    lane os 0 0 = [1; 0; 0; 1; 1; 0; 1; 0; 1; 1; 0; 1; 1; 0; 0; 1; 1; 0; 1; 0; 1; 1; 0; 1] /\ (value Bipolar (lane os 0 0) == 1 # 6)%Q /\
    ((dotq 2 ex_x (qentry [[1 # 2; - (3 # 4)]%Q] 0) + - (1 # 4)) / 3 == 3 # 16)%Q.
Proof.
  split; [|split; [|split]].
  - intros j Hj. exists 1. split; [rewrite Z.mul_1_l; reflexivity|split; [reflexivity|]]. rewrite p2_S. pose proof (p2_pos j). lia.
  - unfold batch_ok, bits, bit. vm_compute ex_h.
    repeat first [reflexivity | apply Forall_nil | apply Forall_cons | (left; reflexivity) | (right; reflexivity) | split].
  - intros [|b] i Hb Hi; [|lia]. destruct i as [|[|i]]; [| |lia]; (split; [split; discriminate|vm_compute; reflexivity]).
  - eexists; eexists; eexists. split; [vm_compute; reflexivity|]. split; [vm_compute; reflexivity|].
    split; [vm_compute; reflexivity|split; vm_compute; reflexivity].
Qed.
Example C76_ex_settles : let xs := bsgen_stream (bingen Unipolar 3 (3 # 8)) (rng_seq ex_ext KSobol 3 1) 0 24 in
  (grid_step Unipolar 3 / 2 < 1 # 2)%Q /\
  (span Unipolar * 3 / ((1 # 2) - grid_step Unipolar 3 / 2) == 48 # 7)%Q /\
  sb_cts (stab_monitors Unipolar 1 (3 # 8) (1 # 2) stab_init xs) = 1.
Proof. split; [|split]; vm_compute; reflexivity. Qed.
(** A convolution with a border: the streams of the 1x2 image with pixels 1/2 and -1/2, all from one sequence; kernel 1x2 of weights 1/2 and
    -1/4; padding 1: the middle window of the middle row has the real average (1/4 + 1/8) / 2. *)
Definition ex_img : list (image Q) := [[[[1 # 2; - (1 # 2)]]]]%Q.
Definition ex_h4 : list (list (image Z)) :=
  map (fun t => [[[map (fun i => bsgen_bit (bingen Bipolar 2 (entry4 0%Q ex_img 0 0 0 i)) (rng_seq ex_ext KSobol 2 1) (Z.of_nat t)) (seq 0 2)]]]) (seq 0 16).
Example C76_ex_conv : let one := (1, 1)%nat in
  conv_sizes (1, 2)%nat one one 1 1 1 2 3 3 /\ tensor_ok (src_ok Bipolar) 1 1 1 2 ex_img /\
  (forall i, (i < 2)%nat -> lane4 ex_h4 0 0 0 i = bsgen_stream (bingen Bipolar 2 (entry4 0%Q ex_img 0 0 0 i)) (rng_seq ex_ext KSobol 2 1) 0 16) /\
  (conv_entry (1, 2)%nat one one (1, 1)%nat 1 1 2 ex_img [[[[1 # 2; - (1 # 4)]]]]%Q 0 0 1 1 / 2 == 3 # 16)%Q /\
  exists c a os, fconv_new ex_ext 1 1 (1, 2)%nat one (PadNum 1) one 1 false "zeros" (Some [[[[1 # 2; - (1 # 4)]]]]%Q) None [] 2 "Bipolar" "Sobol" 1 None 10 = Ok (c, a) /\
    outputs (run_r (fconv_step c a) (fconv_init c) (no_args4 ex_h4)) = Some os /\
    (Qabs (value Bipolar (lane4 os 0 0 1 1) - (3 # 16)) <= 1 # 8)%Q /\ (Qabs (value Bipolar (lane4 os 0 0 0 0)) <= 1 # 8)%Q.
Proof.
  cbv zeta. split; [|split; [|split; [|split]]].
  - unfold conv_sizes. cbn [fst snd]. repeat split; try lia; vm_compute; reflexivity.
  - unfold tensor_ok. repeat first [reflexivity | apply Forall_nil | apply Forall_cons | split]; discriminate.
  - intros i Hi. destruct i as [|[|i]]; [| |lia]; vm_compute; reflexivity.
  - vm_compute. reflexivity.
  - eexists; eexists; eexists. split; [vm_compute; reflexivity|]. split; [vm_compute; reflexivity|]. split; vm_compute; discriminate.
Qed.
