(** Vocabulary for the metrics on tensors. *)
Require Export Verif.TensorModel Verif.TensorSpec Verif.TMetricModel Verif.MetricModel.
Open Scope Z_scope.

(** A tensor with exactly one element and at most one dimension. *)
Definition single (s : shape) : Prop := s = [] \/ s = [1%nat].
(** [s] can be expanded to [r]. *)
Definition expands (s r : shape) : Prop := bshape s r = Some r.
(** Inputs that arrive one after the other at an accumulator of shape [s], which skips those that do not broadcast: its shape in the
    end, the inputs taken, and which inputs were refused. *)
Fixpoint grown {A} (s : shape) (xs : list (tensor A)) : shape :=
  match xs with [] => s | x :: r => grown (match bshape s (shp x) with Some s' => s' | None => s end) r end.
Fixpoint taken {A} (s : shape) (xs : list (tensor A)) : list (tensor A) :=
  match xs with [] => [] | x :: r => match bshape s (shp x) with Some s' => x :: taken s' r | None => taken s r end end.
Fixpoint refusals {A} (s : shape) (xs : list (tensor A)) : list (option pyerr) :=
  match xs with
  | [] => []
  | x :: r => match bshape s (shp x) with Some s' => None :: refusals s' r | None => Some RuntimeError :: refusals s r end
  end.
(** The same for a consumer that needs the accumulator to expand to [S]: the inputs that reach it, and which calls raise. *)
Definition expands_dec (s r : shape) : {expands s r} + {~ expands s r}.
Proof. unfold expands. decide equality. apply list_eq_dec, Nat.eq_dec. Defined.
Fixpoint fitting {A} (S s : shape) (xs : list (tensor A)) : list (tensor A) :=
  match xs with
  | [] => []
  | x :: r => match bshape s (shp x) with
              | Some s' => if expands_dec s' S then x :: fitting S s' r else []
              | None => fitting S s r
              end
  end.
Fixpoint misfits {A} (S s : shape) (xs : list (tensor A)) : list (option pyerr) :=
  match xs with
  | [] => []
  | x :: r => match bshape s (shp x) with
              | Some s' => (if expands_dec s' S then None else Some RuntimeError) :: misfits S s' r
              | None => Some RuntimeError :: misfits S s r
              end
  end.

(** The element that a tensor of shape [] or [1] holds, and a correlation state read as numbers. *)
Definition only {A} (x : tensor A) : A := at1 x [0%nat].
Definition cval (s : corrt) : corr_st :=
  {| co_d := only (ct_d s); co_c := only (ct_c s); co_b := only (ct_b s); co_a := only (ct_a s); co_len := only (ct_len s); co_in1d := only (ct_in1d s) |}.
