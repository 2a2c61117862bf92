(** Vocabulary for the properties of the modules of RtlMoreModel.v. *)
Require Export Verif.Spec Verif.AddModel Verif.RtlMoreModel.
Open Scope Z_scope.

(** The value of the Sobol generator on clock k when it is enabled on every clock (C59 says which value that is). *)
Definition free_run (w k : nat) : Z := nth k (outs (sobol_rtl w) sobol_rtl_init (repeat 1 (S k))) 0.
(** The generator after k enabled clocks. *)
Definition rng_after (w k : nat) : Z * Z := final (sobol_rtl w) sobol_rtl_init (repeat 1 k).
(** What a loadable register holds after the given (value, load) pairs. *)
Definition latched (l : list (Z * Z)) : Z := fold_left (fun v p => if snd p =? 1 then fst p else v) l 0.
Definition port_a (x : mul_in) : Z * Z := let '(iA, iB, loadA, loadB) := x in (iA, loadA).
Definition port_b (x : mul_in) : Z * Z := let '(iA, iB, loadA, loadB) := x in (iB, loadB).
Definition no_load (x : mul_in) : Prop := snd (port_a x) = 0 /\ snd (port_b x) = 0.
(** Both operands are loaded. *)
Definition tmul_load_in (A B : Z) : mul_in := (A, B, 1, 1).

(** The inputs (randNum, dividend, divisor) of a divider whose counter has S d bits. *)
Definition din_ok (d : nat) (p : Z * Z * Z) : Prop := 0 <= fst (fst p) < p2 (S d) /\ bit (snd (fst p)) /\ bit (snd p).
Definition in_dividend (p : Z * Z * Z) : Z := snd (fst p).
Definition in_divisor (p : Z * Z * Z) : Z := snd p.
(** A one of the dividend that the counter can lose: no one of the divisor, or the largest random number. *)
Definition gdiv_loss (d : nat) (p : Z * Z * Z) : bool :=
  (in_dividend p =? 1) && ((in_divisor p =? 0) || (fst (fst p) =? p2 (S d) - 1)).
(** The value a bit stands for in a bipolar stream. *)
Definition pm (x : Z) : Z := 2 * x - 1.
(** How often the bits differ from the one before, the first one being compared with [bd]. *)
Fixpoint changes (bd : Z) (xs : list Z) : Z :=
  match xs with [] => 0 | x :: r => (if x =? bd then 0 else 1) + changes x r end.
(** The inputs (randNum, in) of a square root whose counter has S d bits; the two largest random numbers do not occur. *)
Definition sin_ok (d : nat) (p : Z * Z) : Prop := 0 <= fst p < p2 (S d) - 2 /\ bit (snd p).
(** A one in the exclusive-nor of the output and the output before. *)
Definition agree (x y : Z) : Z := b2z (x =? y).
(** A zero of the input with two zeros of the output, which the counter can lose. *)
Definition gsqrt_loss (p : Z * (Z * Z)) : bool := (fst p =? 0) && (fst (snd p) =? 0) && (snd (snd p) =? 0).

(** FSUAdd with scale 1, the number of entries taken from the input. *)
Definition unit_cfg (m : mode) (depth : Z) : fsuadd_cfg := {| fa_mode := m; fa_scale := Some 1%Q; fa_depth := depth; fa_entry := None |}.

(** A count of the bits, up on a one and down on a zero. *)
Definition updown (xs : list Z) : Z := zsum (map pm xs).
(** The value of a register of S b bits read as a two's complement number. *)
Definition signed (b : nat) (x : Z) : Z := if x <? p2 b then x else x - p2 (S b).
(** The dividend and the divisor among the inputs (randNum, randNumKernel, dividend, divisor) of CORDIV_kernel_IS. *)
Definition is_a (p : Z * Z * Z * Z) : Z := snd (fst p).
Definition is_b (p : Z * Z * Z * Z) : Z := snd p.
(** Clock t of the kernel of CORDIV_kernel_IS_U: its random number, and the two counts so far, taken modulo 2^BW and compared with the
    other random number. *)
Definition is_regen (bw : nat) (h : list (Z * Z * Z * Z)) (t : nat) : Z * Z * Z :=
  let p := nth t h (0, 0, 0, 0) in let r := fst (fst (fst p)) in
  (snd (fst (fst p)), b2z (updown (map is_a (firstn t h)) mod p2 bw >? r), b2z (updown (map is_b (firstn t h)) mod p2 bw >? r)).
(** CORDIV_kernel_IS_B, BW = S b: a count as a signed number, the magnitude the module takes for it, the clocks t of the kernel, and the
    clocks on which the quotient is inverted. *)
Definition is_signed (b : nat) (xs : list Z) : Z := signed b (updown xs mod p2 (S b)).
Definition is_mag (b : nat) (v : Z) : Z := if v =? 0 then 0 else p2 (S b) - Z.abs v.
Definition is_regen_b (b : nat) (h : list (Z * Z * Z * Z)) (t : nat) : Z * Z * Z :=
  let p := nth t h (0, 0, 0, 0) in let r := fst (fst (fst p)) in
  (snd (fst (fst p)), b2z (is_mag b (is_signed b (map is_a (firstn t h))) >? r), b2z (is_mag b (is_signed b (map is_b (firstn t h))) >? r)).
Definition is_flip (b : nat) (h : list (Z * Z * Z * Z)) (t : nat) : Z :=
  b2z (xorb (0 <=? is_signed b (map is_a (firstn t h))) (0 <=? is_signed b (map is_b (firstn t h)))).
(** The ones with the numbers 2^d, ..., 2^(d+1)-1 (the first one has number 0). *)
Definition relu_gap (d : nat) (n : Z) : bool := (p2 d <=? n) && (n <? p2 (S d)).

(** The radical inverse: the n lowest digits of k in base b, read backwards. *)
Definition digit (b : Z) (i : nat) (k : Z) : Z := (k / b ^ Z.of_nat i) mod b.
Definition radical_inverse (b : Z) (n : nat) (k : Z) : Z :=
  zsum (map (fun i => digit b i k * b ^ Z.of_nat (n - 1 - i)) (seq 0 n)).

(** BISQRT_S_IS with DEP registers: the quotient is 0 on odd clocks; on even clocks it is 1 when the fed-back bit u is 1, and otherwise the
    one of the last DEP quotients that the random number selects, counted from the oldest (0, 1, 0, ... before the first clock). *)
Definition is_quotients (dep : nat) (rs us qs : list Z) : Prop :=
  length qs = length rs /\ forall t, (t < length rs)%nat ->
  nth t qs 0 = if Nat.odd t then 0 else if nth t us 0 =? 1 then 1
               else nth (Z.to_nat (nth t rs 0)) (firstn dep (skipn t (map (fun i => Z.of_nat i mod 2) (seq 0 dep) ++ qs))) 0.
