(** Vocabulary for the multiply-accumulate units of RtlMacModel.v. *)
Require Export Verif.Spec Verif.RtlMacModel Verif.RtlMoreSpec Verif.KernelModel Verif.LinearModel.
Open Scope Z_scope.

(** The operands of lane i after the given rows of inputs. *)
Definition lane_in (i : nat) (h : list (list mul_in)) : list mul_in := map (fun row => nth i row (0, 0, 0, 0)) h.
Definition held_a (h : list (list mul_in)) (t i : nat) : Z := latched (map port_a (lane_in i (firstn t h))).
Definition held_b (h : list (list mul_in)) (t i : nat) : Z := latched (map port_b (lane_in i (firstn t h))).
Definition rows_ok (h : list (list mul_in)) : Prop := Forall (fun row => length row = 16%nat) h.
(** The operands are A and B from clock k to clock k + n - 1. *)
Definition holds (h : list (list mul_in)) (A B : nat -> Z) (k n : nat) : Prop :=
  forall t i, (k <= t < k + n)%nat -> (i < 16)%nat -> held_a h t i = A i /\ held_b h t i = B i.
(** The ones on the n clocks from clock k on. *)
Definition ones_from (k n : nat) (os : list Z) : Z := ones (firstn n (skipn k os)).
(** The lane that is selected while the eight-bit generator shows v: its upper half, the highest bit inverted if the lower half has an
    odd number of ones. *)
Definition odd_ones (v : Z) : bool := xorb (xorb (Z.testbit v 0) (Z.testbit v 1)) (xorb (Z.testbit v 2) (Z.testbit v 3)).
Definition lane_of (v : Z) : Z := if odd_ones v then (v / 16 + 8) mod 16 else v / 16.
(** How often the second generator of dMAC has stepped before clock t: only while the upper counter is at its last value. *)
Definition slow (w t : nat) : nat :=
  let q := (t / 2 ^ w)%nat in (q / 2 ^ w * 2 ^ w + (if (q mod 2 ^ w =? 2 ^ w - 1)%nat then t mod 2 ^ w else 0))%nat.
(** What the product unit of a lane emits while the generator shows v. *)
Definition bit_min (A B : nat -> Z) (v : Z) (i : nat) : bool := v <? Z.min (A i) (B i).
Definition bit_same (A B : nat -> Z) (v : Z) (i : nat) : bool := Bool.eqb (v <? A i) (v <? B i).
(** The largest of the sixteen values of m, at least 0; their sum. *)
Definition largest (m : nat -> Z) : Z := fold_right Z.max 0 (map m (seq 0 16)).
Definition total (m : nat -> Z) : Z := zsum (map m (seq 0 16)).
(** One row of inputs that loads the operands A and B. *)
Definition mac_row (A B : nat -> Z) : list mul_in := map (fun i => (A i, B i, 1, 1)) (seq 0 16).

(** Rows of sixteen bits; the FSULinear with sixteen inputs, one output, weights Bs and no bias; the products its FSUMuls form. *)
Definition mac_bits (h : list (list Z)) : Prop := Forall (fun row => length row = 16%nat /\ bits row) h.
Definition layer16_cfg (m : mode) (rng Bs : list Z) : pc_cfg :=
  {| pc_mode := m; pc_wtc := false; pc_rng := rng; pc_in := 16; pc_out := 1; pc_weight := [Bs]; pc_bias := None |}.
Definition mac_prods (m : mode) (rng Bs : list Z) (h : list (list Z)) : list (list Z) :=
  map (fun t => map (fun i => nth t (outs (fsumul_static_step m (nth i Bs 0) rng) fsumul_static_init (map (fun r => nth i r 0) h)) 0) (seq 0 16))
    (seq 0 (length h)).
