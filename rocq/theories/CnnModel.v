(** Layers, activations and reshapes put one behind the other, as torch.nn.Sequential does: a module is its state, its initial state and
    its forward method. Only single calls per module and cycle; no runtime scale or entry (linear.py:76, conv.py:97). *)
From Coq Require Import String.
Require Export Verif.Base Verif.LinearModel Verif.ConvModel Verif.TensorModel Verif.NewModel.
Open Scope Z_scope.

Record machine : Type := mkM { m_st : Type; m_init : m_st; m_step : m_st -> tensor Z -> result (m_st * tensor Z) }.
(** nn.Sequential: every cycle the input of a module is what the one before has just returned. *)
Definition m_seq (M N : machine) : machine :=
  {| m_st := m_st M * m_st N; m_init := (m_init M, m_init N);
     m_step := fun s x => bind (m_step M (fst s) x) (fun r => bind (m_step N (snd s) (snd r)) (fun r' => Ok ((fst r, fst r'), snd r'))) |}.
Definition m_id : machine := {| m_st := unit; m_init := tt; m_step := fun s x => Ok (s, x) |}.
Definition sequential (Ms : list machine) : machine := fold_right m_seq m_id Ms.

(** A tensor of shape (B, n) as a list of rows and back; (N, C, H, W) as a list of images and back. Other ranks are not modelled. *)
Definition to_rows (x : tensor Z) : result (list (list Z)) :=
  match shp x with
  | [n; B] => Ok (map (fun b => map (fun i => elt x [i; b]) (seq 0 n)) (seq 0 B))
  | _ => Err RuntimeError
  end.
Definition of_rows (rows : list (list Z)) : tensor Z :=
  mkT [length (hd [] rows); length rows] (fun i => match i with [i; b] => nth i (nth b rows []) 0 | _ => 0 end).
Definition to_imgs (x : tensor Z) : result (list (image Z)) :=
  match shp x with
  | [W; H; C; N] => Ok (map (fun n => map (fun c => map (fun y => map (fun x0 => elt x [x0; y; c; n]) (seq 0 W)) (seq 0 H)) (seq 0 C)) (seq 0 N))
  | _ => Err RuntimeError
  end.
Definition of_imgs (t : list (image Z)) : tensor Z :=
  let n0 := hd [] t in let c0 := hd [] n0 in let y0 := hd [] c0 in
  mkT [length y0; length c0; length n0; length t]
      (fun i => match i with [x; y; c; n] => nth x (nth y (nth c (nth n t []) []) []) 0 | _ => 0 end).

(** linear.py:76-80, conv.py:97-101 on tensors. *)
Definition m_linear (ca : pc_cfg * fsuadd_cfg) : machine :=
  {| m_st := flin_st; m_init := flin_init (fst ca);
     m_step := fun s x => bind (to_rows x) (fun rows => bind (flin_step (fst ca) (snd ca) s (rows, None, None)) (fun r => Ok (fst r, of_rows (snd r)))) |}.
Definition m_conv (ca : conv_cfg * fsuadd_cfg) : machine :=
  {| m_st := fconv_st; m_init := fconv_init (fst ca);
     m_step := fun s x => bind (to_imgs x) (fun t => bind (fconv_step (fst ca) (snd ca) s (t, None, None)) (fun r => Ok (fst r, of_imgs (snd r)))) |}.
(** relu.py, depth = S d. *)
Definition m_relu (d : nat) : machine := {| m_st := tensor Z; m_init := fsurelu_t_init d; m_step := fsurelu_t d |}.
(** sigmoid.py:43-44: the adder sums along dimension 0 of the stacked tensor. *)
Definition fsuhardsigmoid_t (c : fsuadd_cfg) (st : fsuadd_t_st) (x : tensor Z) : result (fsuadd_t_st * tensor Z) :=
  bind (tstack2 x (tlike 1 x)) (fun s => fsuadd_t c 0 st s).
Definition m_hardsigmoid (c : fsuadd_cfg) : machine := {| m_st := fsuadd_t_st; m_init := fsuadd_t_init c; m_step := fsuhardsigmoid_t c |}.
(** tanh.py FSUHardtanh.forward returns its input; torch.flatten(x, 1) of shape (N, C, H, W), row-major. *)
Definition m_hardtanh : machine := m_id.
Definition flatten (x : tensor Z) : result (tensor Z) :=
  match shp x with
  | [W; H; C; N] => Ok (mkT [(C * (H * W))%nat; N]
      (fun i => match i with [f; n] => elt x [f mod W; (f / W) mod H; f / (H * W); n]%nat | _ => 0 end))
  | _ => Err RuntimeError
  end.
Definition m_flatten : machine := {| m_st := unit; m_init := tt; m_step := fun s x => bind (flatten x) (fun y => Ok (s, y)) |}.
