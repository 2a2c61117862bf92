(** What "every element evolves as if it were processed alone" means for a step on tensors. *)
Require Import Verif.TensorModel.
Open Scope Z_scope.

(** The shape of an input (None: its parts do not broadcast against each other), and the element of it that position [i] of a larger
    shape sees. *)
Definition shape1 {A} (x : tensor A) : option shape := Some (shp x).
Definition at1 {A} (x : tensor A) (i : index) : A := elt x (bidx (shp x) i).
Definition shape2 {A B} (x : tensor A * tensor B) : option shape := bshape (shp (fst x)) (shp (snd x)).
Definition at2 {A B} (x : tensor A * tensor B) (i : index) : A * B := (at1 (fst x) i, at1 (snd x) i).

Section Lanewise.
  Context {TX TY X Y : Type}.
  Variables (xshape : TX -> option shape) (xat : TX -> index -> X) (yok : shape -> TY -> Prop) (yat : TY -> index -> Y).

  (** The shape after a history, starting from shape [s]. *)
  Fixpoint hshape (s : shape) (xs : list TX) : option shape :=
    match xs with
    | [] => Some s
    | x :: r =>
        match xshape x with
        | None => None
        | Some sx => match bshape s sx with None => None | Some s' => hshape s' r end
        end
    end.

  (** [T] from [st0] is [f] from [s0] at every position: a history that does not broadcast raises RuntimeError; on any other
      history the t-th output has the broadcast shape of the inputs so far, and its element at position i is the t-th output of [f]
      on the elements that position i sees. *)
  Definition lanewise_on {TS St : Type} (T : TS -> TX -> result (TS * TY)) (st0 : TS) (f : St -> X -> St * Y) (s0 : St)
             (xs : list TX) : Prop :=
    match hshape [1%nat] xs with
    | None => run_r T st0 xs = Err RuntimeError
    | Some _ =>
        exists st ys, run_r T st0 xs = Ok (st, ys) /\ length ys = length xs /\
        forall t y, nth_error ys t = Some y ->
        exists sh, hshape [1%nat] (firstn (S t) xs) = Some sh /\ yok sh y /\
        forall i, valid sh i -> nth_error (outs f s0 (map (fun x => xat x i) xs)) t = Some (yat y i)
    end.
  Definition lanewise {TS St : Type} (T : TS -> TX -> result (TS * TY)) (st0 : TS) (f : St -> X -> St * Y) (s0 : St) : Prop :=
    forall xs, lanewise_on T st0 f s0 xs.
End Lanewise.

(** Outputs: one tensor of the given shape; two tensors of the given shape. *)
Definition out1 {A} (s : shape) (y : tensor A) : Prop := shp y = s.
Definition oat1 {A} (y : tensor A) (i : index) : A := elt y i.
Definition out2 {A B} (s : shape) (y : tensor A * tensor B) : Prop := shp (fst y) = s /\ shp (snd y) = s.
Definition oat2 {A B} (y : tensor A * tensor B) (i : index) : A * B := (elt (fst y) i, elt (snd y) i).

(** FSUAdd: the shape with the summed axis removed, the column of bits along it. *)
Definition addshape (dima : nat) (x : tensor Z) : option shape :=
  if (dima <? length (shp x))%nat then Some (remove_at (length (shp x) - 1 - dima) (shp x)) else None.
Definition addat (dima : nat) (x : tensor Z) (i : index) : list Z :=
  let k := (length (shp x) - 1 - dima)%nat in
  let j := bidx (remove_at k (shp x)) i in
  map (fun n => elt x (insert_at k n j)) (seq 0 (nth k (shp x) 0%nat)).
