(** Vocabulary for streams that are watched over stretches of cycles, and for modules that saturate. *)
From Coq Require Import String.
Require Export Verif.Base Verif.Spec Verif.BinConvSpec Verif.ProgSpec Verif.NetSpec Verif.ConvModel Verif.CnnSpec.
Open Scope string_scope.
Open Scope list_scope.
Open Scope Z_scope.

(** The bits of cycles a to b-1. *)
Definition stretch (a b : nat) (xs : list Z) : list Z := skipn a (firstn b xs).
(** Over every stretch, wherever it starts, the value is within q plus K bits of v. *)
Definition steady (m : mode) (q K : Q) (v : Q) (xs : list Z) : Prop :=
  forall a b, (a < b <= length xs)%nat -> (Qabs (value m (stretch a b xs) - v) <= q + span m * K / inject_Z (Z.of_nat (b - a)))%Q.
(** The nearest value a stream can have. *)
Definition clip (m : mode) (v : Q) : Q :=
  (let lo := match m with Unipolar => 0 | Bipolar => -1 end in if Qle_bool v lo then lo else if Qle_bool 1 v then 1 else v)%Q.
(** Two streams side by side. *)
Definition pair_bits (h : list (Z * Z)) : Prop := Forall (fun p => bit (fst p) /\ bit (snd p)) h.
Definition qtotal (n : nat) (f : nat -> Q) : Q := qsum (map f (seq 0 n)).

(** Layers built with any scale; None: the default, the number of entries. *)
Definition builds_at (ext : rng_ext) (w : nat) (m_name r_name : String.string) (L : layer) (scale : option Q) (ca : pc_cfg * fsuadd_cfg) : Prop :=
  flin_new ext (ly_in L) (ly_out L) (ly_bias L) (Some (ly_w L)) (ly_b L) [] w m_name r_name (ly_dim L) scale (ly_depth L) = Ok ca.
Definition scale_of (entries : Z) (scale : option Q) : Q := match scale with None => inject_Z entries | Some s => s end.
(** The weighted sum, before it is divided by the scale. *)
Definition affine (L : layer) (x : nat -> Q) (o : nat) : Q :=
  (qtotal (ly_in L) (fun i => x i * nth i (nth o (ly_w L) []) 0) + match ly_b L with Some b => if ly_bias L then nth o b 0 else 0 | None => 0 end)%Q.
(** What an accumulator that has been used before may still hold, in output bits. *)
Definition left_over (used : bool) (depth : Z) (s : Q) : Q := if used then (Qpower 2 (depth - 2) / s)%Q else 0%Q.
Definition cbuilds_at (ext : rng_ext) (w : nat) (m_name r_name : String.string) (L : clayer) (scale : option Q) (ca : conv_cfg * fsuadd_cfg) : Prop :=
  fconv_new ext (cl_in L) (cl_out L) (cl_kernel L) (cl_stride L) (PadNum (cl_pad L)) (cl_dil L) 1 (cl_bias L) "zeros" (Some (cl_w L)) (cl_b L) []
    w m_name r_name (cl_dim L) scale (cl_depth L) = Ok ca.
Definition caffine (L : clayer) (H W : nat) (v : nat -> nat -> nat -> Q) (o y x : nat) : Q :=
  (sumq_taps (cl_in L) (fst (cl_kernel L)) (snd (cl_kernel L)) (fun k i j => pixel L H W (v k) y x i j * entry4 0%Q (cl_w L) o k i j) +
   match cl_b L with Some b => if cl_bias L then nth o b 0 else 0 | None => 0 end)%Q.

(** The budget of one call of the gated unit: n entries per layer, binary width w, width wm of the in-stream multiplier, inputs
    within q plus K bits. The streams of the forget gate (f), of the gated state (h), of the new gate (g), of the product of the gates
    (p) and of the result (y). *)
Definition gate_q (n : Q) (w : nat) (q : Q) : Q := (n * (q + grid_step Bipolar w / 2))%Q.
Definition gate_K (n : Q) (w : nat) (K : Q) : Q := (2 * (n * (K + 4 * inject_Z (Z.of_nat w))) + 1)%Q.
Definition f_q (n : Q) (w : nat) (q : Q) : Q := (gate_q n w q / 2)%Q.
Definition f_K (n : Q) (w : nat) (K : Q) : Q := (gate_K n w K / 2 + 1)%Q.
Definition h_q (n : Q) (w : nat) (q : Q) : Q := (f_q n w q + grid_step Bipolar w / 2)%Q.
Definition h_K (n : Q) (w : nat) (K : Q) : Q := (f_K n w K + 4 * inject_Z (Z.of_nat w))%Q.
Definition g_q (n : Q) (w : nat) (q : Q) : Q := gate_q n w (h_q n w q).
Definition g_K (n : Q) (w : nat) (K : Q) : Q := gate_K n w (h_K n w K).
Definition p_q (n : Q) (w wm : nat) (q K : Q) : Q := (f_q n w q + g_q n w q + 2 * g_K n w K / Qpower 2 (Z.of_nat wm))%Q.
Definition p_K (n : Q) (w wm : nat) (K : Q) : Q := (f_K n w K + 4 * inject_Z (Z.of_nat wm) + Qpower 2 (Z.of_nat wm))%Q.
Definition y_q (n : Q) (w wm : nat) (q K : Q) : Q := (g_q n w q + p_q n w wm q K + h_q n w q)%Q.
Definition y_K (n : Q) (w wm : nat) (K : Q) : Q := (2 * (g_K n w K + p_K n w wm K + h_K n w K) + 1)%Q.
