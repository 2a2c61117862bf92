(** Vocabulary for comparing two runs of the same unit. *)
Require Export Verif.Base Verif.Spec Verif.AddModel Verif.LinearModel Verif.LinearProof.
Open Scope Z_scope.

(** At every moment the second stream has carried at least as many ones as the first. *)
Definition behind (xs ys : list Z) : Prop := forall t, ones (firstn t xs) <= ones (firstn t ys).
(** ... and at most n more. *)
Definition behind_by (n : nat -> Z) (xs ys : list Z) : Prop :=
  forall t, (t <= length xs)%nat -> ones (firstn t xs) <= ones (firstn t ys) <= ones (firstn t xs) + n t.

(** How many output ones of weight s the additional input ones of the first t columns could pay for if every column were
    rounded up on its own. *)
Definition surplus (s : Q) (cols1 cols2 : list (list Z)) (t : nat) : Z :=
  zsum (map (fun i => Qceiling (inject_Z (zsum (nth i cols2 []) - zsum (nth i cols1 [])) / s)) (seq 0 t)).
(** No column of the first run carries more ones than that of the second. *)
Definition columns_le (cols1 cols2 : list (list Z)) : Prop := Forall2 (fun x y => zsum x <= zsum y) cols1 cols2.

(** Entry by entry at most. *)
Definition table_le (w1 w2 : list (list Z)) : Prop := Forall2 (Forall2 Z.le) w1 w2.
Definition option_le (b1 b2 : option (list Z)) : Prop :=
  match b1, b2 with None, None => True | Some x, Some y => Forall2 Z.le x y | _, _ => False end.

(** Two unipolar rate-coded layers of the same shape over the same sequence, deep enough not to saturate at their default scale,
    the second with nowhere smaller parameters. *)
Definition layers_le (l1 l2 : pc_cfg * Z) : Prop :=
  let c1 := fst l1 in let c2 := fst l2 in
  pc_in c1 = pc_in c2 /\ pc_out c1 = pc_out c2 /\ pc_rng c1 = pc_rng c2 /\ (0 < length (pc_rng c1))%nat /\
  pc_mode c1 = Unipolar /\ pc_mode c2 = Unipolar /\ pc_wtc c1 = false /\ pc_wtc c2 = false /\
  table_le (pc_weight c1) (pc_weight c2) /\ option_le (pc_bias c1) (pc_bias c2) /\
  0 < flin_entry c1 /\ (inject_Z (2 * flin_entry c1 - 1) <= qpow2 (snd l1 - 2))%Q /\ (inject_Z (2 * flin_entry c2 - 1) <= qpow2 (snd l2 - 2))%Q.
(** The layers as the network takes them: at the default scale. *)
Definition plain (l : pc_cfg * Z) : pc_cfg * fsuadd_cfg := (fst l, flin_acc_cfg (fst l) None (snd l)).
(** Every layer has the shape its fields state and takes what the one before gives. *)
Fixpoint fitted (n : nat) (ls : list (pc_cfg * Z)) : Prop :=
  match ls with [] => True | l :: r => pc_shape (fst l) /\ pc_in (fst l) = n /\ fitted (pc_out (fst l)) r end.
Definition width_out (n : nat) (ls : list (pc_cfg * Z)) : nat := fold_left (fun _ l => pc_out (fst l)) ls n.
(** Every lane of the second history is at least as far as that of the first. *)
Definition lanes_behind (B n : nat) (h1 h2 : list (list (list Z))) : Prop :=
  forall b i, (b < B)%nat -> (i < n)%nat -> behind (lane h1 b i) (lane h2 b i).

(** Bit by bit at most. *)
Definition bits_le (xs ys : list Z) : Prop := Forall2 Z.le xs ys.
(** The same divisor and bit by bit at most the dividend. *)
Definition dividend_le (h1 h2 : list (Z * Z)) : Prop := Forall2 (fun a b => fst a <= fst b /\ snd a = snd b) h1 h2.
