(** Vocabulary for what a convolution sees of an image. *)
Require Export Verif.SymSpec Verif.ConvModel Verif.ConvProof.
Open Scope Z_scope.

(** The row and column of the image under tap (i, j) of the window at (y, x). *)
Definition tap_y (c : conv_cfg) (p y i : nat) : Z := Z.of_nat (y * fst (cv_stride c) + i * fst (cv_dil c)) - Z.of_nat p.
Definition tap_x (c : conv_cfg) (p x j : nat) : Z := Z.of_nat (x * snd (cv_stride c) + j * snd (cv_dil c)) - Z.of_nat p.
Definition inside (H W : nat) (y x : Z) : bool := (0 <=? y) && (y <? Z.of_nat H) && (0 <=? x) && (x <? Z.of_nat W).
(** A number given per pixel, and another for what surrounds the image, summed over the taps of a window. *)
Definition window_sum (c : conv_cfg) (p H W : nat) (f : nat -> nat -> nat -> Z) (border : Z) (y x : nat) : Z :=
  sum_taps (cv_chan c) (fst (cv_kernel c)) (snd (cv_kernel c)) (fun k i j =>
    if inside H W (tap_y c p y i) (tap_x c p x j) then f k (Z.to_nat (tap_y c p y i)) (Z.to_nat (tap_x c p x j)) else border).
(** The same layer moved by other steps. *)
Definition with_stride (s : nat * nat) (c : conv_cfg) : conv_cfg :=
  {| cv_pc := cv_pc c; cv_chan := cv_chan c; cv_kernel := cv_kernel c; cv_stride := s; cv_dil := cv_dil c; cv_pad := cv_pad c |}.
(** The whole window at (y, x) lies on the image. *)
Definition window_inside (c : conv_cfg) (p H W y x : nat) : Prop :=
  forall i j, (i < fst (cv_kernel c))%nat -> (j < snd (cv_kernel c))%nat -> inside H W (tap_y c p y i) (tap_x c p x j) = true.
(** The images of h1 are the parts of those of h2 that start at row Y and column X. *)
Definition cropped (N C H W Y X : nat) (h1 h2 : list (list (image Z))) : Prop :=
  length h1 = length h2 /\
  forall t n k y x, (t < length h1)%nat -> (n < N)%nat -> (k < C)%nat -> (y < H)%nat -> (x < W)%nat ->
    entry4 0 (nth t h1 []) n k y x = entry4 0 (nth t h2 []) n k (Y + y) (X + x).
(** Every pixel negated. *)
Definition negated_images (h : list (list (image Z))) : list (list (image Z)) := map (map (map (map negated))) h.
