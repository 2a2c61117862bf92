(** Vocabulary for the temporally coded multiply-accumulate units of RtlTmacModel.v. *)
Require Export Verif.RtlMacSpec Verif.RtlTmacModel.
Open Scope Z_scope.

(** How many clocks before clock t the operand A of lane i was loaded last, not counting the clock of the load. *)
Definition since (loads : list Z) : nat := fold_left (fun n l => if l =? 1 then 0%nat else S n) loads 0%nat.
Definition age (h : list (list mul_in)) (t i : nat) : nat := since (map (fun x => snd (port_a x)) (lane_in i (firstn t h))).
(** Lane i is running on clock t: its operand A was loaded at least one and at most A clocks earlier, not counting the clock of the load. *)
Definition running (h : list (list mul_in)) (t i : nat) : bool :=
  (1 <=? age h t i)%nat && (Z.of_nat (age h t i) <=? held_a h t i).
(** The comparison of the operand B with the generator; the product bits. *)
Definition below (h : list (list mul_in)) (t i : nat) : bool := free_run 8 t <? held_b h t i.
Definition prod_uni (h : list (list mul_in)) (t i : nat) : bool := running h t i && below h t i.
Definition prod_bi (h : list (list mul_in)) (t i : nat) : bool := Bool.eqb (running h t i) (below h t i).
(** The ones of the product of lane i on the n clocks from clock k on; those of all lanes before clock t. *)
Definition prod_ones (h : list (list mul_in)) (k n i : nat) : Z := countb (fun u => prod_uni h u i) (seq k n).
Definition emitted (h : list (list mul_in)) (t : nat) : Z := total (prod_ones h 0 t).
(** Rows of sixteen lanes with eight-bit operands. *)
Definition rows8 (h : list (list mul_in)) : Prop := rows_ok h /\ Forall (Forall (fun x => 0 <= fst (port_a x) < 256)) h.
(** Rows that load nothing; a load of A and B followed by such rows. *)
Definition no_loads (h : list (list mul_in)) : Prop := Forall (Forall no_load) h.
(** How many of the n numbers of the generator from clock k on are below B. *)
Definition sobol_below (k n : nat) (B : Z) : Z := countb (fun u => free_run 8 u <? B) (seq k n).
(** Eight-bit operands of the sixteen lanes. *)
Definition ops_ok (A B : nat -> Z) : Prop := forall i, (i < 16)%nat -> 0 <= A i < 256 /\ 0 <= B i < 256.
