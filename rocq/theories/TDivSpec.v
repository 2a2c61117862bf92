(** What "every element evolves as if it were processed alone" means for kernels that may raise and whose inputs all have one shape. *)
Require Import Verif.TensorModel.
Open Scope Z_scope.

Section SameShape.
  Context {TX TY X Y : Type}.
  Variables (xat : TX -> index -> X) (yok : TY -> Prop) (yat : TY -> index -> Y).

  (** If the tensor history returns, there is one output per input, each of the right shape, and the stream of outputs at every position
      of shape [s] is the stream the one-lane kernel [f] returns on the stream of inputs at this position. If it raises, then the
      one-lane kernel raises the same exception at every position. *)
  Definition same_lanes {TS St : Type} (s : shape) (T : TS -> TX -> result (TS * TY)) (st0 : TS) (f : St -> X -> result (St * Y)) (s0 : St)
             (xs : list TX) : Prop :=
    match run_r T st0 xs with
    | Ok (_, ys) => length ys = length xs /\ Forall yok ys /\
        forall i, valid s i -> exists st, run_r f s0 (map (fun x => xat x i) xs) = Ok (st, map (fun y => yat y i) ys)
    | Err e => forall i, valid s i -> run_r f s0 (map (fun x => xat x i) xs) = Err e
    end.
End SameShape.

(** A kernel that never raises. *)
Definition total {St X Y : Type} (f : St -> X -> St * Y) (st : St) (x : X) : result (St * Y) := Ok (f st x).

(** Two inputs of the same shape, the elements of both at a position; the input, mask and index of a shift register call. *)
Definition both (s : shape) (x : tensor Z * tensor Z) : Prop := shp (fst x) = s /\ shp (snd x) = s.
Definition elt2 (x : tensor Z * tensor Z) (i : index) : Z * Z := (elt (fst x) i, elt (snd x) i).
Definition sr_call (entry : nat) (s : shape) (x : tensor Z * option (tensor Z) * nat) : Prop :=
  let '(input, mask, index) := x in
  shp input = s /\ match mask with None => True | Some m => shp m = s end /\ (index < entry)%nat.
Definition sr_at (x : tensor Z * option (tensor Z) * nat) (i : index) : Z * option Z * Z :=
  let '(input, mask, index) := x in (elt input i, option_map (fun m => elt m i) mask, Z.of_nat index).
