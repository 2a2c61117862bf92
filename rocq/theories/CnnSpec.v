(** Vocabulary for sequences of layers, activations and reshapes: the real functions they stand for and the errors they may make. *)
From Coq Require Import String.
Require Export Verif.Base Verif.Spec Verif.ConvErrSpec Verif.NewSpec Verif.ProgSpec Verif.NetSpec Verif.CnnModel.
Open Scope Z_scope.

(** What a convolutional layer is built from: a square border of zeros, one group. *)
Record clayer : Type := {
  cl_in : nat; cl_out : nat; cl_kernel : nat * nat; cl_stride : nat * nat; cl_dil : nat * nat; cl_pad : nat; cl_bias : bool;
  cl_w : list (list (list (list Q))); cl_b : option (list Q); cl_dim : nat; cl_depth : Z
}.
Definition cl_entries (L : clayer) : Z := Z.of_nat (taps (cl_in L) (cl_kernel L)) + b2z (cl_bias L).
Definition cbuilds (ext : rng_ext) (w : nat) (m_name r_name : string) (L : clayer) (ca : conv_cfg * fsuadd_cfg) : Prop :=
  fconv_new ext (cl_in L) (cl_out L) (cl_kernel L) (cl_stride L) (PadNum (cl_pad L)) (cl_dil L) 1 (cl_bias L) "zeros" (Some (cl_w L)) (cl_b L) []
    w m_name r_name (cl_dim L) None (cl_depth L) = Ok ca.
Definition clayer_ok (m : mode) (ext : rng_ext) (L : clayer) : Prop :=
  dirvec_ok 30 (ext_dirvec ext (cl_dim L)) /\
  tensor_ok (src_ok m) (cl_out L) (cl_in L) (fst (cl_kernel L)) (snd (cl_kernel L)) (cl_w L) /\ src_opt m (cl_b L) /\
  (inject_Z (2 * cl_entries L - 1) <= Qpower 2 (cl_depth L - 2))%Q.

(** The pixel under tap (i, j) of the window at (y, x), zero outside the image. *)
Definition pixel (L : clayer) (H W : nat) (v : nat -> nat -> Q) (y x i j : nat) : Q :=
  let yy := Z.of_nat (y * fst (cl_stride L) + i * fst (cl_dil L)) - Z.of_nat (cl_pad L) in
  let xx := Z.of_nat (x * snd (cl_stride L) + j * snd (cl_dil L)) - Z.of_nat (cl_pad L) in
  if (0 <=? yy) && (yy <? Z.of_nat H) && (0 <=? xx) && (xx <? Z.of_nat W) then v (Z.to_nat yy) (Z.to_nat xx) else 0%Q.
(** The real average of channel o at (y, x); v k y x: channel k of the input. *)
Definition real_conv (L : clayer) (H W : nat) (v : nat -> nat -> nat -> Q) (o y x : nat) : Q :=
  ((sumq_taps (cl_in L) (fst (cl_kernel L)) (snd (cl_kernel L)) (fun k i j => pixel L H W (v k) y x i j * entry4 0%Q (cl_w L) o k i j) +
    match cl_b L with Some b => if cl_bias L then nth o b 0 else 0 | None => 0 end) / inject_Z (cl_entries L))%Q.

(** The modules of a network. An index lists positions from the last dimension to the first: [i; b] is feature i of sample b,
    [x; y; c; n] is pixel (y, x) of channel c of image n. *)
Inductive stage : Type := Lin (L : layer) | Conv (L : clayer) | ReLU (d : nat) | HardSigmoid (depth : Z) | HardTanh | Flatten.

(** The constructors accept the configuration. ReLU d: FSUReLU of depth d + 1. *)
Definition built (ext : rng_ext) (w : nat) (m_name r_name : string) (st : stage) (M : machine) : Prop :=
  match st with
  | Lin L => exists ca, builds ext w m_name r_name L ca /\ M = m_linear ca
  | Conv L => exists ca, cbuilds ext w m_name r_name L ca /\ M = m_conv ca
  | ReLU d => M = m_relu d
  | HardSigmoid depth => exists c, fsuhardsigmoid_new m_name depth = Ok c /\ M = m_hardsigmoid c
  | HardTanh => M = m_hardtanh
  | Flatten => M = m_flatten
  end.

(** Shapes: what comes out, and what may go in. *)
Definition stage_out (st : stage) (s : list nat) : list nat :=
  match st, s with
  | Lin L, [_; B] => [ly_out L; B]
  | Conv L, [W; H; _; N] =>
      [Z.to_nat (positions (Z.of_nat (W + 2 * cl_pad L)) (Z.of_nat (snd (cl_kernel L))) (Z.of_nat (snd (cl_stride L))) (Z.of_nat (snd (cl_dil L))));
       Z.to_nat (positions (Z.of_nat (H + 2 * cl_pad L)) (Z.of_nat (fst (cl_kernel L))) (Z.of_nat (fst (cl_stride L))) (Z.of_nat (fst (cl_dil L))));
       cl_out L; N]
  | Flatten, [W; H; C; N] => [(C * (H * W))%nat; N]
  | _, _ => s
  end.
Definition stage_fits (st : stage) (s : list nat) : Prop :=
  match st, s with
  | Lin L, [n; B] => ly_in L = n /\ (1 <= ly_out L)%nat /\ (1 <= B)%nat
  | Conv L, [W; H; C; N] => cl_in L = C /\ (1 <= cl_out L)%nat /\ (1 <= N)%nat /\
      exists ho wo, conv_sizes (cl_kernel L) (cl_stride L) (cl_dil L) (cl_pad L) C H W ho wo
  | Flatten, [W; H; C; N] => (1 <= W)%nat /\ (1 <= H)%nat
  | (ReLU _ | HardSigmoid _), _ :: _ => True
  | HardTanh, _ => True
  | _, _ => False
  end.

(** The real function of a module on values of shape s. *)
Definition pos_part (v : Q) : Q := if Qle_bool 0 v then v else 0%Q.
Definition real_stage (st : stage) (s : list nat) (v : list nat -> Q) (i : list nat) : Q :=
  match st with
  | Lin L => match i with [o; b] => real_layer L (fun k => v [k; b]) o | _ => 0 end
  | Conv L => match s, i with [W; H; _; _], [x; y; o; n] => real_conv L H W (fun k y x => v [x; y; k; n]) o y x | _, _ => 0 end
  | ReLU _ => pos_part (v i)
  | HardSigmoid _ => (v i + 1) / 2
  | HardTanh => v i
  | Flatten => match s, i with [W; H; _; _], [f; n] => v [f mod W; (f / W) mod H; f / (H * W); n]%nat | _, _ => 0 end
  end%Q.
Fixpoint real_seq (sts : list stage) (s : list nat) (v : list nat -> Q) : list nat -> Q :=
  match sts with [] => v | st :: r => real_seq r (stage_out st s) (real_stage st s v) end.
Fixpoint seq_out (sts : list stage) (s : list nat) : list nat :=
  match sts with [] => s | st :: r => seq_out r (stage_out st s) end.

(** xs follows, up to K bits at any time, some value that is off v by at most q. *)
Definition tracks (m : mode) (q K : Q) (v : Q) (xs : list Z) : Prop :=
  exists v', (Qabs (v' - v) <= q)%Q /\ (Qabs v' <= 1)%Q /\ progresses m 0 K v' xs.

(** A history of bit tensors of shape s, and the stream at one position. *)
Definition hist_ok (s : list nat) (h : list (tensor Z)) : Prop := Forall (fun x => shp x = s /\ forall i, valid s i -> bit (elt x i)) h.
Definition tlane (h : list (tensor Z)) (i : list nat) : list Z := map (fun x => elt x i) h.

(** What a module adds to the two errors; [used]: it may have been called before. *)
Definition q_after (m : mode) (w : nat) (st : stage) (q : Q) : Q :=
  match st with Lin _ | Conv _ => q + grid_step m w / 2 | ReLU _ | HardTanh | Flatten => q | HardSigmoid _ => q / 2 end%Q.
Definition relu_slack (used : bool) (d : nat) (K : Q) : Q :=
  if used then (if Qle_bool (3 * K + 1) (inject_Z (p2 d) / 2) then inject_Z (p2 d) / 2 else 3 * K + 1)%Q else (2 * K + (1 # 2))%Q.
Definition K_after (m : mode) (w : nat) (used : bool) (st : stage) (K : Q) : Q :=
  match st with
  | Lin _ | Conv _ => K + layer_slack m w used + 1
  | ReLU d => relu_slack used d K
  | HardSigmoid _ => K / 2 + 1
  | HardTanh | Flatten => K
  end%Q.
(** Parameters in range and counters deep enough, given that the inputs stray by at most K bits. *)
Definition stage_ok (m : mode) (ext : rng_ext) (st : stage) (K : Q) : Prop :=
  match st with
  | Lin L => layer_ok m ext L
  | Conv L => clayer_ok m ext L /\ ((1 # 2) <= K)%Q
  | ReLU d => m = Bipolar /\ (4 * K < inject_Z (p2 d))%Q
  | HardSigmoid depth => 4 <= depth
  | HardTanh | Flatten => True
  end.

(** The same along a network. *)
Fixpoint seq_fits (m : mode) (ext : rng_ext) (w : nat) (used : bool) (sts : list stage) (s : list nat) (K : Q) : Prop :=
  match sts with
  | [] => True
  | st :: r => stage_fits st s /\ stage_ok m ext st K /\ seq_fits m ext w used r (stage_out st s) (K_after m w used st K)
  end.
Definition q_seq (m : mode) (w : nat) (sts : list stage) (q : Q) : Q := fold_left (fun q st => q_after m w st q) sts q.
Definition K_seq (m : mode) (w : nat) (used : bool) (sts : list stage) (K : Q) : Q := fold_left (fun K st => K_after m w used st K) sts K.
