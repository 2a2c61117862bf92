(** Vocabulary for the square roots of RtlRootModel.v. *)
Require Export Verif.Spec Verif.RtlRootModel.
Open Scope Z_scope.

(** The inputs are (randNum, unknown, in). *)
Definition root_in (p : Z * Z * Z) : Z := snd p.
Definition root_rand (p : Z * Z * Z) : Z := fst (fst p).
Definition root_unknown (p : Z * Z * Z) : Z := snd (fst p).
Definition root_ok (p : Z * Z * Z) : Prop := 0 <= root_rand p /\ bit (root_unknown p) /\ bit (root_in p).
(** The bits selected among the complements of the last [dep] outputs, the oldest first, [sr] standing before the first output; a number
    past the last of them selects the unknown bit. *)
Definition root_pick (dep : nat) (sr : list Z) (h : list (Z * Z * Z)) (os : list Z) (t : nat) : Z :=
  let p := nth t h (0, 0, 0) in
  nth (Z.to_nat (root_rand p)) (firstn dep (skipn t (sr ++ map (fun o => 1 - o) os))) (root_unknown p).
(** 0, 1, 0, 1, ... *)
Definition root_start (dep : nat) : list Z := map (fun i => if Nat.even i then 0 else 1) (seq 0 dep).
(** The bits fed back: a gating bit and the selected bit. *)
Definition root_fed (dep : nat) (sr : list Z) (h : list (Z * Z * Z)) (gs os : list Z) : list Z :=
  map (fun t => Z.land (nth t gs 0) (root_pick dep sr h os t)) (seq 0 (length h)).
(** What is added before clock t less what is emitted. *)
Definition root_balance (h : list (Z * Z * Z)) (es os : list Z) (t : nat) : Z :=
  ones (map root_in (firstn t h)) + ones (firstn t es) - ones (firstn t os).
