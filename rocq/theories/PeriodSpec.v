(** Vocabulary for what units and networks do with inputs that repeat. *)
Require Export Verif.Base Verif.Spec Verif.GenModel Verif.LinearModel Verif.NetSpec Verif.MonoSpec Verif.FaultSpec Verif.ShiftSpec.
Open Scope Z_scope.

(** From cycle T0 on the bits repeat every P cycles, and any P of them in a row are worth exactly v. *)
Definition repeats (m : mode) (T0 P : nat) (v : Q) (xs : list Z) : Prop :=
  (forall t, (T0 <= t)%nat -> (t + P < length xs)%nat -> nth (t + P) xs 0 = nth t xs 0) /\
  (forall t, (T0 <= t)%nat -> (t + P <= length xs)%nat -> (value m (firstn P (skipn t xs)) == v)%Q).

(** A layer at its default scale, deep enough not to saturate, whose sequence runs through all w-bit numbers and whose weights and biases are
    w-bit thresholds. *)
Definition whole_layer (m : mode) (w : nat) (l : pc_cfg * Z) : Prop :=
  sound l /\ pc_mode (fst l) = m /\ perm_seq w (pc_rng (fst l)) /\
  (forall o i, (o < pc_out (fst l))%nat -> (i < pc_in (fst l))%nat -> 0 <= entry2 (pc_weight (fst l)) o i <= p2 w) /\
  match pc_bias (fst l) with None => True | Some bs => forall o, (o < pc_out (fst l))%nat -> 0 <= nth o bs 0 <= p2 w end.
(** The number of inputs of a layer, its bias counted. *)
Definition fan_in (l : pc_cfg * Z) : nat := (pc_in (fst l) + match pc_bias (fst l) with None => 0 | Some _ => 1 end)%nat.
(** The real average of the products of the inputs with the weights the thresholds stand for. *)
Definition grid_layer (m : mode) (w : nat) (l : pc_cfg * Z) (x : nat -> Q) (o : nat) : Q :=
  ((qsum (map (fun i => x i * grid_value m w (entry2 (pc_weight (fst l)) o i)) (seq 0 (pc_in (fst l)))) +
    match pc_bias (fst l) with None => 0 | Some bs => grid_value m w (nth o bs 0%Z) end) / inject_Z (Z.of_nat (fan_in l)))%Q.
Definition grid_net (m : mode) (w : nat) (ls : list (pc_cfg * Z)) (x : nat -> Q) : nat -> Q := fold_left (fun x l => grid_layer m w l x) ls x.
(** How long it takes until everything repeats. *)
Definition net_period (w : nat) (ls : list (pc_cfg * Z)) (P : nat) : nat := fold_left (fun P l => fan_in l * (2 ^ w * P))%nat ls P.

(** What tap number i of the window at (y, x) sees when f gives a number per channel and pixel; nothing, that is 0, beyond the border. *)
Definition seen (c : conv_cfg) (p H W : nat) (f : nat -> nat -> nat -> Q) (y x i : nat) : Q :=
  let kh := fst (cv_kernel c) in let kw := snd (cv_kernel c) in
  let ty := tap_y c p y (i mod (kh * kw) / kw) in let tx := tap_x c p x (i mod (kh * kw) mod kw) in
  if inside H W ty tx then f (i / (kh * kw))%nat (Z.to_nat ty) (Z.to_nat tx) else 0%Q.
