(** Python / torch primitives used by the models, and the run of a state machine.
    Definitions only (plus notations); lemmas are in BaseLemmas.v. *)
From Coq Require Export List ZArith QArith Qround Qabs Bool.
Export ListNotations.
Open Scope Z_scope.

(** Python exceptions as values (the class of the exception only). *)
Inductive pyerr : Type :=
| AssertionError | IndexError | AttributeError | TypeError | RuntimeError | ValueError.

Inductive result (A : Type) : Type :=
| Ok (a : A)
| Err (e : pyerr).
Arguments Ok {A} a.
Arguments Err {A} e.

Definition bind {A B : Type} (x : result A) (f : A -> result B) : result B :=
  match x with Ok a => f a | Err e => Err e end.

(** [torch.gt/ge/eq/lt(..).type(t)]: a boolean tensor cast to a number, one lane. *)
Definition b2z (b : bool) : Z := if b then 1 else 0.

(** [torch.clamp(x, lo, hi)] = min(max(x, lo), hi), integer lane. *)
Definition zclamp (lo hi x : Z) : Z := Z.min (Z.max x lo) hi.

(** The same three operations on exact rationals. *)
Definition qmax (a b : Q) : Q := if Qle_bool a b then b else a.
Definition qmin (a b : Q) : Q := if Qle_bool a b then a else b.
Definition qclamp (lo hi x : Q) : Q := qmin (qmax x lo) hi.

(** [torch.ge(a, b)], [torch.gt(a, b)], [torch.lt(a, b)] on rationals. *)
Definition qge (a b : Q) : bool := Qle_bool b a.
Definition qgt (a b : Q) : bool := negb (Qle_bool a b).
Definition qlt (a b : Q) : bool := negb (Qle_bool b a).

(** [2**n] for an integer n, possibly negative (Python then returns a float). *)
Definition qpow2 (n : Z) : Q := Qpower (2#1) n.

(** [x << n] and [x >> n] on a float tensor: x * 2**n, x / 2**n. *)
Definition qshl (x : Q) (n : Z) : Q := (x * qpow2 n)%Q.
Definition qshr (x : Q) (n : Z) : Q := (x / qpow2 n)%Q.

(** [torch.round]: to the nearest integer, ties to the even one. *)
Definition qround (q : Q) : Z :=
  let f := Qfloor q in
  let r := (q - inject_Z f)%Q in
  match Qcompare r (1#2) with
  | Lt => f
  | Gt => f + 1
  | Eq => if Z.even f then f else f + 1
  end.

(** [torch.trunc]: towards zero. *)
Definition qtrunc (q : Q) : Z := if Qle_bool 0 q then Qfloor q else Qceiling q.

(** [torch.frac]: x - trunc(x). *)
Definition qfrac (q : Q) : Q := (q - inject_Z (qtrunc q))%Q.

(** [torch.sign]. *)
Definition qsign (q : Q) : Z := match Qcompare q 0 with Lt => -1 | Eq => 0 | Gt => 1 end.

(** Length as an integer, indexing with an integer (only used with an index proved in range,
    except where a model guards it and returns [Err IndexError]). *)
Definition zlen {A : Type} (l : list A) : Z := Z.of_nat (length l).
Definition nthZ (l : list Z) (i : Z) : Z := nth (Z.to_nat i) l 0.

(** [torch.sum] of an integer vector, of a rational vector. *)
Fixpoint zsum (l : list Z) : Z := match l with [] => 0 | x :: r => x + zsum r end.
Fixpoint qsum (l : list Q) : Q := match l with [] => 0%Q | x :: r => (x + qsum r)%Q end.

(** [range(n)] as integers. *)
Definition zrange (n : nat) : list Z := map Z.of_nat (seq 0 n).

Definition p2 (w : nat) : Z := 2 ^ Z.of_nat w.

(** Value encoding of a stream. *)
Inductive mode : Type := Unipolar | Bipolar.

(** A history of calls: outputs in order, and the final state. *)
Section Run.
  Context {S I O : Type}.
  Variable step : S -> I -> S * O.
  Fixpoint run (s : S) (xs : list I) : S * list O :=
    match xs with
    | [] => (s, [])
    | x :: r =>
        let '(s1, o) := step s x in
        let '(s2, os) := run s1 r in
        (s2, o :: os)
    end.
  Definition outs (s : S) (xs : list I) : list O := snd (run s xs).
  Definition final (s : S) (xs : list I) : S := fst (run s xs).
End Run.

(** The same when a call may raise: the history stops at the first exception. *)
Section RunR.
  Context {S I O : Type}.
  Variable step : S -> I -> result (S * O).
  Fixpoint run_r (s : S) (xs : list I) : result (S * list O) :=
    match xs with
    | [] => Ok (s, [])
    | x :: r =>
        match step s x with
        | Err e => Err e
        | Ok (s1, o) =>
            match run_r s1 r with
            | Err e => Err e
            | Ok (s2, os) => Ok (s2, o :: os)
            end
        end
    end.
End RunR.

Fixpoint map2 {A B C : Type} (f : A -> B -> C) (xs : list A) (ys : list B) : list C :=
  match xs, ys with
  | x :: xr, y :: yr => f x y :: map2 f xr yr
  | _, _ => []
  end.
