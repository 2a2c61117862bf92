(** Vocabulary for the units of RtlAddsModel.v. *)
Require Export Verif.RtlMacSpec Verif.RtlAddsModel.
Open Scope Z_scope.

(** Rows of eight bits. *)
Definition row8 (x : list Z) : Prop := length x = 8%nat /\ bits x.
Definition rows8b (h : list (list Z)) : Prop := Forall row8 h.
(** The weight apcADD gives to a row: two for each of the first three pairs with a one, one for the last. *)
Definition has_one (x : list Z) (i j : nat) : Z := b2z ((nth i x 0 =? 1) || (nth j x 0 =? 1)).
Definition apc_weight (x : list Z) : Z := 2 * has_one x 0 1 + 2 * has_one x 2 3 + 2 * has_one x 4 5 + has_one x 6 7.
(** The number the adders with an eight-bit generator use on clock t. *)
Definition low3 (t : nat) : Z := free_run 8 t mod 8.
(** The ones of lane i on the n clocks from clock k on. *)
Definition lane_ones (h : list (list Z)) (i k n : nat) : Z := countb (fun u => nth i (nth u h []) 0 =? 1) (seq k n).
(** From clock k to clock k + n - 1 every lane repeats every eight clocks. *)
Definition repeats8 (h : list (list Z)) (k n : nat) : Prop :=
  forall u i, (k <= u)%nat -> (u + 8 < k + n)%nat -> nth i (nth (u + 8) h []) 0 = nth i (nth u h []) 0.
(** What was written last to an address. *)
Definition last_write (a : Z) (ws : list (Z * Z * Z * Z)) : Z :=
  fold_left (fun v w => let '(_, wr_en, wr_addr, iData) := w in if (wr_en =? 1) && (a =? wr_addr) then iData else v) ws 0.
(** The position of the lowest zero of an eight-bit number, 8 if there is none. *)
Definition lowest_zero (v : Z) : nat := match find (fun i => negb (Z.testbit v (Z.of_nat i))) (seq 0 8) with Some i => i | None => 8%nat end.
(** Eight-bit operands. *)
Definition byte (v : Z) : Prop := 0 <= v < 256.
(** The n-th Gray code. *)
Definition gray_at (n : nat) : Z := Z.lxor (Z.of_nat n / 2) (Z.of_nat n).
(** The inputs of exp: three random bits and the input bit. *)
Definition quad (d : Z * Z * Z * Z) : Prop := let '(r0, r1, r2, x) := d in bit r0 /\ bit r1 /\ bit r2 /\ bit x.
Definition rb0 (d : Z * Z * Z * Z) : bool := fst (fst (fst d)) =? 1.
Definition rb1 (d : Z * Z * Z * Z) : bool := snd (fst (fst d)) =? 1.
Definition rb2 (d : Z * Z * Z * Z) : bool := snd (fst d) =? 1.
Definition xin (d : Z * Z * Z * Z) : bool := snd d =? 1.
