(** The vocabulary of the statements: everything here is independent of the models. *)
From Coq Require Export Permutation Sorted.
Require Export Verif.Base.
Open Scope Z_scope.

(** A bit, a bitstream. *)
Definition bit (x : Z) : Prop := x = 0 \/ x = 1.
Definition bits (xs : list Z) : Prop := Forall bit xs.

(** Number of list elements satisfying a test. *)
Fixpoint countb {A : Type} (f : A -> bool) (l : list A) : Z :=
  match l with [] => 0 | x :: r => (if f x then 1 else 0) + countb f r end.

(** Number of ones / zeros of a stream; its walk = ones - zeros (the bipolar numerator). *)
Definition ones (xs : list Z) : Z := countb (Z.eqb 1) xs.
Definition zeros (xs : list Z) : Z := countb (Z.eqb 0) xs.
Definition walk (xs : list Z) : Z := ones xs - zeros xs.

(** Value represented by a stream of n>0 bits. *)
Definition value (m : mode) (xs : list Z) : Q :=
  match m with
  | Unipolar => inject_Z (ones xs) / inject_Z (zlen xs)
  | Bipolar => inject_Z (walk xs) / inject_Z (zlen xs)
  end%Q.

(** [l] contains each of 0..2^w-1 exactly once. *)
Definition perm_seq (w : nat) (l : list Z) : Prop := Permutation l (zrange (2 ^ w)).

(** z is q rounded to the nearest integer, ties to even. *)
Definition rounds_to (q : Q) (z : Z) : Prop :=
  (Qabs (q - inject_Z z) <= 1#2)%Q /\
  ((Qabs (q - inject_Z z) == 1#2)%Q -> Z.even z = true).

(** The maximum over all prefixes (including the empty one) of a non-negative-at-empty measure. *)
Fixpoint prefix_max (f : list Z -> Z) (pre rest : list Z) : Z :=
  match rest with
  | [] => f pre
  | x :: r => Z.max (f pre) (prefix_max f (pre ++ [x]) r)
  end.
(** [max_over_prefixes f xs] = max of [f p] over all prefixes p of xs. *)
Definition max_over_prefixes (f : list Z -> Z) (xs : list Z) : Z := prefix_max f [] xs.

(** The last n elements. *)
Definition lastn {A : Type} (n : nat) (l : list A) : list A := skipn (length l - n) l.

(** Alternating pattern 0101.. of length n. *)
Definition alternating (n : nat) : list Z := map (fun x => Z.of_nat x mod 2) (seq 0 n).

(** The infinite repetition of a non-empty list, at index k >= 0. *)
Definition cyc (l : list Z) (k : nat) : Z := nth (k mod length l) l 0.

(** Number of the first n entries of the infinite repetition of l that are below B. *)
Definition below (l : list Z) (B : Z) (n : nat) : Z := countb (fun k => cyc l k <? B) (seq 0 n).

(** Admissible Sobol direction numbers with M fractional bits: V j = m_j * 2^(M-1-j) with m_j odd and
    0 < m_j < 2^(j+1). *)
Definition dirvec_ok (M : nat) (V : nat -> Z) : Prop :=
  forall j, (j < M)%nat ->
    exists m, V j = m * p2 (M - 1 - j) /\ Z.odd m = true /\ 0 < m < p2 (S j).

(** n-fold application of a register step. *)
Fixpoint iter_state (next : list Z -> list Z) (s : list Z) (n : nat) : list Z :=
  match n with O => s | S m => next (iter_state next s m) end.

(** The number a bit vector spells, most significant bit first. *)
Definition msb_value (s : list Z) : Z := fold_left (fun v b => 2 * v + b) s 0.

(** A maximal-length register: from the seed, every state is a w-bit vector, the first 2^w-1 states differ
    and are non-zero, and state 2^w-1 is the seed again. *)
Definition lfsr_maximal (w : nat) (next : list Z -> list Z) (s0 : list Z) : Prop :=
  (forall i, length (iter_state next s0 i) = w /\ bits (iter_state next s0 i)) /\
  (forall i, (i < 2 ^ w - 1)%nat -> Exists (eq 1) (iter_state next s0 i)) /\
  (forall i j, (i < 2 ^ w - 1)%nat -> (j < 2 ^ w - 1)%nat ->
     iter_state next s0 i = iter_state next s0 j -> i = j) /\
  iter_state next s0 (2 ^ w - 1) = s0.

(** Source values representable in a mode. *)
Definition src_ok (m : mode) (s : Q) : Prop :=
  match m with Unipolar => (0 <= s <= 1)%Q | Bipolar => (-(1) <= s <= 1)%Q end.

(** The value represented by integer b on a w-bit grid. *)
Definition grid_value (m : mode) (w : nat) (b : Z) : Q :=
  match m with
  | Unipolar => (inject_Z b / inject_Z (p2 w))%Q
  | Bipolar => (2 * (inject_Z b / inject_Z (p2 w)) - 1)%Q
  end.

(** Distance between neighbouring grid values. *)
Definition grid_step (m : mode) (w : nat) : Q :=
  match m with Unipolar => (1 / inject_Z (p2 w))%Q | Bipolar => (2 / inject_Z (p2 w))%Q end.

(** Largest magnitude of a list. *)
Definition is_max_abs (raw : list Q) (m : Q) : Prop :=
  (exists x, In x raw /\ (Qabs x == m)%Q) /\ Forall (fun x => (Qabs x <= m)%Q) raw.

(** A pair of bits; an output pair whose first one coincides with a second one. *)
Definition bitpair (p : Z * Z) : Prop := bit (fst p) /\ bit (snd p).

(** The excess of input 1 over input 2 in a segment. *)
Definition excess (h : list (Z * Z)) : Z := ones (map fst h) - ones (map snd h).
Definition overlapped (o : Z * Z) : Prop := fst o = 1 -> snd o = 1.

(** Ones in all columns of a history of columns. *)
Definition total_ones (cols : list (list Z)) : Z := zsum (map ones cols).

(** How an adder picks its entry count and its scale: call argument, else configuration, else default. *)
Definition resolved_entry (arg cfg : option Z) (size : Z) : Z :=
  match arg, cfg with Some e, _ => e | None, Some e => e | None, None => size end.
Definition resolved_scale (arg cfg : option Q) (entry : Z) : Q :=
  match arg, cfg with Some q, _ => q | None, Some q => q | None, None => inject_Z entry end.

(** The bits that make bipolar zero when e entries are reduced with a scale s. *)
Definition mode_offset (m : mode) (e : Z) (s : Q) : Q :=
  match m with Unipolar => 0%Q | Bipolar => ((inject_Z e - s) / 2)%Q end.

(** Number of steps at which the walk of xs, started at s, comes back from -1 to 0. *)
Fixpoint returns_to_zero (s : Z) (xs : list Z) : Z :=
  match xs with
  | [] => 0
  | x :: r => (if (s =? -1) && (x =? 1) then 1 else 0) + returns_to_zero (s + (2 * x - 1)) r
  end.

(** One-sided reflection: the walk pushed up by two whenever it would reach -2. *)
Definition reflected_walk (xs : list Z) : Z :=
  walk xs + 2 * ((Z.max 0 (max_over_prefixes (fun p => -1 - walk p) xs) + 1) / 2).

(** The inputs of a masked history that were enabled. *)
Definition enabled (h : list (Z * option Z * Z)) : list Z :=
  map (fun i => fst (fst i)) (filter (fun i => match snd (fst i) with Some 0 => false | _ => true end) h).

(** J/K events. *)
Definition jk_hold (p : Z * Z) : Prop := fst p = 0 /\ snd p = 0.
Definition jk_toggle (p : Z * Z) : Prop := fst p <> 0 /\ snd p <> 0.
Definition jk_set (p : Z * Z) : Prop := fst p <> 0 /\ snd p = 0.
Definition jk_reset (p : Z * Z) : Prop := fst p = 0 /\ snd p <> 0.
Definition jk_toggles (h : list (Z * Z)) : Z :=
  countb (fun p => negb (fst p =? 0) && negb (snd p =? 0)) h.

(** Neither set nor reset. *)
Definition no_force (p : Z * Z) : Prop := jk_hold p \/ jk_toggle p.

(** The walk of every prefix stays in the range of a counter of 2^(d+1) values centred at 2^d. *)
Definition in_signabs_range (d : nat) (xs : list Z) : Prop :=
  forall k, - p2 d <= walk (firstn k xs) <= p2 d - 1.

(** A masked call is enabled (1) or disabled (0). *)
Definition mask_ok (i : Z * option Z * Z) : Prop :=
  match snd (fst i) with None => True | Some m => bit m end.

(** The last n values of a past that is preceded by the pattern 0101.. *)
Definition recent (n : nat) (past : list Z) : list Z := lastn n (alternating n ++ past).
Definition window (w : nat) (past : list Z) : list Z := recent (2 ^ w) past.

(** A sequence of 2^w indices below 2^w. *)
Definition index_seq (w : nat) (rng : list Z) : Prop :=
  length rng = (2 ^ w)%nat /\ Forall (fun r => 0 <= r < p2 w) rng.

(** First components of the pairs whose second component is 1. *)
Definition at_ones (h : list (Z * Z)) : list Z := map fst (filter (fun p => snd p =? 1) h).

(** Bit-inserting square root: read a 0, write a 0; read a 1, write two ones and swallow the next input. *)
Fixpoint insert_ones (xs : list Z) : list Z :=
  match xs with
  | [] => []
  | x :: r => if x =? 0 then 0 :: insert_ones r
              else 1 :: match r with [] => [] | _ :: r' => 1 :: insert_ones r' end
  end.

(** Emitting square root: the bit re-injected because of output [t] is [u_t] and not the output n calls
    earlier (before that, the alternating start pattern of a register of n). *)
Definition emitted (n : nat) (os us : list Z) (t : nat) : Z :=
  nth t us 0 * (if (t <? n)%nat then Z.of_nat t mod 2 else 1 - nth (t - n) os 0).

(** Bits re-injected into the first k inputs: the one caused by output t goes into call t + 1. *)
Definition reinjected (n : nat) (os us : list Z) (k : nat) : Z :=
  zsum (map (emitted n os us) (seq 0 (k - 1))).

(** Square root with the division kernel as trace (register of 4): inputs are taken in pairs; the first
    passes, the second is raised to 1 if the first was 1 and otherwise or-ed with the recorded quotient that
    the sequence selects. *)
Fixpoint insert_quotients (rng past : list Z) (k : nat) (xs : list Z) : list Z :=
  match xs with
  | [] => []
  | [a] => [a]
  | a :: b :: r =>
      a :: (if a =? 1 then 1 else Z.max b (nth (Z.to_nat (cyc rng k)) (recent 4 past) 0))
        :: insert_quotients rng (past ++ (if a =? 1 then [1; 0] else [0])) (k + 2) r
  end.

(** Number of (u,v) pairs. *)
Definition pairs (u v : Z) (h : list (Z * Z)) : Z := countb (fun p => (fst p =? u) && (snd p =? v)) h.

(** Stochastic cross correlation of two streams of frequencies p and q whose conjunction has frequency r:
    the deviation of r from independence relative to the largest deviation possible. *)
Definition scc (p q r : Q) : Q :=
  if Qlt_le_dec (p * q) r then ((r - p * q) / (qmin p q - p * q))%Q
  else ((r - p * q) / (p * q - qmax (p + q - 1) 0))%Q.

(** Index (counted from 1) of the last element satisfying f; 0 if there is none. *)
Fixpoint last_index {A} (f : A -> bool) (k : Z) (l : list A) : Z :=
  match l with
  | [] => 0
  | x :: r => let t := last_index f (k + 1) r in if t =? 0 then (if f x then k else 0) else t
  end.

(** y is a value of the w-bit grid of the mode, in range. *)
Definition on_grid (m : mode) (w : nat) (y : Q) : Prop :=
  (exists k : Z, (y == inject_Z k * grid_step m w)%Q) /\ src_ok m y.

(** The interval of values of the mode: nearest point of it, and the affine image of [0,1] on it. *)
Definition mode_clamp (m : mode) (x : Q) : Q := match m with Unipolar => qclamp 0 1 x | Bipolar => qclamp (-1) 1 x end.
Definition mode_affine (m : mode) (x : Q) : Q := match m with Unipolar => x | Bipolar => (2 * x - 1)%Q end.

(** lo and hi are the extremes of the list. *)
Definition extremes (w : list Q) (lo hi : Q) : Prop :=
  In lo w /\ In hi w /\ Forall (fun x => (lo <= x /\ x <= hi)%Q) w.

(** The number of starting positions x = 0, s, 2s, ... in a padded axis of length n at which a kernel of k taps at
    distance d fits: its last tap x + d(k-1) is still inside. *)
Definition fits (n k s d x : Z) : bool := (x mod s =? 0) && (x + d * (k - 1) <? n).
Definition positions (n k s d : Z) : Z := countb (fits n k s d) (zrange (Z.to_nat n)).

(** Column i of a list of rows. *)
Definition column (i : nat) (rows : list (list Q)) : list Q := map (fun r => nth i r 0%Q) rows.

(** Inside two standard deviations. *)
Definition in_two_sigma (mean std x : Q) : bool := Qle_bool (mean - 2 * std) x && Qle_bool x (mean + 2 * std).

(** How the scaled maximum magnitude sits relative to 2^w after each kind of rounding of its logarithm
    (for round to nearest the bounds are 2^(w-1/2) and 2^(w+1/2), hence the squares). *)
Definition above_and_upto (w : Z) (x : Q) : Prop := (Qpower 2 (w - 1) < x /\ x <= Qpower 2 w)%Q.
Definition from_and_below (w : Z) (x : Q) : Prop := (Qpower 2 w <= x /\ x < Qpower 2 (w + 1))%Q.
Definition around (w : Z) (x : Q) : Prop := (Qpower 2 (2 * w - 1) < x * x /\ x * x < Qpower 2 (2 * w + 1))%Q.

(** A batch of B rows of n bits; the stream of input i of row b in a history of batches; entry (o,i) of a matrix. *)
Definition batch_ok (B n : nat) (x : list (list Z)) : Prop :=
  length x = B /\ Forall (fun r => length r = n /\ bits r) x.
Definition batch_shape (B n : nat) (x : list (list Z)) : Prop := length x = B /\ Forall (fun r => length r = n) x.
Definition entry2 (x : list (list Z)) (b i : nat) : Z := nth i (nth b x []) 0.
Definition lane (h : list (list (list Z))) (b i : nat) : list Z := map (fun x => entry2 x b i) h.

(** The product of two bits in a mode: and, or coincidence. *)
Definition product_bit (m : mode) (x w : Z) : Z :=
  match m with Unipolar => x * w | Bipolar => if x =? w then 1 else 0 end.

(** Number of ones a period's worth of products contributes, times 2^w: ones weigh B and (bipolar) zeros 2^w - B. *)
Definition product_weight (m : mode) (w : nat) (B : Z) (xs : list Z) : Z :=
  ones xs * B + match m with Unipolar => 0 | Bipolar => zeros xs * (p2 w - B) end.

(** The result of a history, without the state. *)
Definition outputs {S O : Type} (r : result (S * list O)) : option (list O) :=
  match r with Ok (_, os) => Some os | Err _ => None end.

(** A w-bit unary value; a stream made of whole periods of the w-bit sequence, as seen by a multiplier. *)
Definition in_range (w : nat) (B : Z) : Prop := 0 <= B <= p2 w.
Definition full_periods (m : mode) (w : nat) (xs : list Z) : Prop := (p2 w | ones xs) /\ (m = Bipolar -> (p2 w | zeros xs)).

(** The exact result of the layer, as a value. *)
Definition exact_layer (m : mode) (w n : nat) (weights : list Z) (bias : option Z) (xs : nat -> list Z) : Q :=
  ((qsum (map (fun i => value m (xs i) * grid_value m w (nth i weights 0%Z))%Q (seq 0 n))
    + match bias with None => 0 | Some b => grid_value m w b end)
   / inject_Z (Z.of_nat n + match bias with None => 0%Z | Some _ => 1%Z end))%Q.

(** The number of ones in T cycles of all products and the bias, times 2^w. *)
Definition layer_weight (m : mode) (w n : nat) (weights : list Z) (bias : option Z) (xs : nat -> list Z) (T : Z) : Z :=
  zsum (map (fun i => product_weight m w (nth i weights 0) (xs i)) (seq 0 n))
  + match bias with None => 0 | Some b => T * b end.

(** Sign-magnitude quantisation to multiples of 2^r with magnitudes below [cycle]; fixed point quantisation to
    multiples of 2^r with magnitudes below [m]. *)
Definition step_round (r : Z) (x : Q) : Z := qround (x / Qpower 2 r).
Definition sm_quant (cycle r : Z) (x : Q) : Q :=
  (inject_Z (qsign x * Z.min (cycle - 1) (Z.abs (step_round r x))) * Qpower 2 r)%Q.
Definition fx_quant (m r : Z) (x : Q) : Q :=
  (inject_Z (Z.max (1 - m) (Z.min (m - 1) (step_round r x))) * Qpower 2 r)%Q.

(** The exact dot product of the first n entries, and the exact affine layer. *)
Definition dotq (n : nat) (x w : nat -> Q) : Q := qsum (map (fun i => x i * w i)%Q (seq 0 n)).
Definition qentry (m : list (list Q)) (b i : nat) : Q := nth i (nth b m []) 0%Q.
Definition qshape (r c : nat) (m : list (list Q)) : Prop := length m = r /\ Forall (fun row => length row = c) m.
Definition bias_entry (b : option (list Q)) (o : nat) : Q := match b with None => 0%Q | Some l => nth o l 0%Q end.

(** q is within half a step of x, or saturated: at the top magnitude, on the same side as x, which is beyond it. *)
Definition near_or_saturated (step top x q : Q) : Prop :=
  (Qabs (x - q) <= step * (1 # 2) \/ (Qabs q == top /\ top <= Qabs x /\ 0 <= x * q))%Q.

(** Base 2^t digits of a natural number, and the number rebuilt from d digits of which every one is cut at [top]. *)
Definition digit (t : nat) (n : Z) (j : nat) : Z := (n / p2 (t * j)) mod p2 t.
Definition cut_digits (d t : nat) (top n : Z) : Z := zsum (map (fun j => Z.min top (digit t n j) * p2 (t * j)) (seq 0 d)).

(** The inner product of two matrices given by their entries; the exact affine layer by its entries. *)
Definition inner (r c : nat) (f g : nat -> nat -> Q) : Q :=
  qsum (map (fun i => qsum (map (fun j => f i j * g i j)%Q (seq 0 c))) (seq 0 r)).
Definition affine (n : nat) (x w : nat -> nat -> Q) (b : nat -> Q) : nat -> nat -> Q :=
  fun i o => (dotq n (x i) (w o) + b o)%Q.

(** A tensor of N images of C channels of H rows of W entries; its entries; the stream of one entry. *)
Definition tensor_ok {A : Type} (P : A -> Prop) (N C H W : nat) (t : list (list (list (list A)))) : Prop :=
  length t = N /\ Forall (fun img => length img = C /\ Forall (fun ch => length ch = H /\
    Forall (fun row => length row = W /\ Forall P row) ch) img) t.
Definition entry4 {A : Type} (d : A) (t : list (list (list (list A)))) (n c y x : nat) : A :=
  nth x (nth y (nth c (nth n t []) []) []) d.

(** The entry at (y, x) of a channel of H rows and W columns that is surrounded by the constant v. *)
Definition surrounded {A : Type} (v : A) (H W : nat) (t : list (list (list (list A)))) (n c : nat) (y x : Z) : A :=
  if (0 <=? y) && (y <? Z.of_nat H) && (0 <=? x) && (x <? Z.of_nat W)
  then entry4 v t n c (Z.to_nat y) (Z.to_nat x) else v.

(** Sum over the taps of a kernel. *)
Definition sum_taps (C kh kw : nat) (f : nat -> nat -> nat -> Z) : Z :=
  zsum (map (fun c => zsum (map (fun i => zsum (map (fun j => f c i j) (seq 0 kw))) (seq 0 kh))) (seq 0 C)).

(** The bit that surrounds the image at call t. *)
Definition border_bit (m : mode) (t : nat) : Z := match m with Unipolar => 0 | Bipolar => Z.of_nat t mod 2 end.

(** The numbers of the binary32 format (without the upper bound on the exponent): 24 bits times a power of two. *)
Definition single (q : Q) : Prop :=
  exists n k, Z.abs n <= 2 ^ 24 /\ -149 <= k /\ (q == inject_Z n * Qpower 2 k)%Q.
(** Multiples of 2^-g. *)
Definition dyadic (g : Z) (q : Q) : Prop := exists n, (q == inject_Z n * Qpower 2 (- g))%Q.

(** One step of the minimal gated unit on H hidden values h and inputs x, entry by entry: the forget gate f, the candidate
    n, the convex combination (1 - f) n + f h. [q] quantises every operand (the identity for the unquantised cell). *)
Definition joined (H : nat) (h x : nat -> Q) (i : nat) : Q := if Nat.ltb i H then h i else x (i - H)%nat.
Definition mgu_forget (q : Q -> Q) (H I : nat) (wf : nat -> nat -> Q) (bf : nat -> Q) (h x : nat -> Q) (o : nat) : Q :=
  q (qclamp 0 1 ((q (qclamp (-1) 1 (dotq (H + I) (fun i => q (joined H h x i)) (fun i => q (wf o i)) + q (bf o))) + 1) / 2))%Q.
Definition mgu_new (q : Q -> Q) (H I : nat) (wf wn : nat -> nat -> Q) (bf bn : nat -> Q) (h x : nat -> Q) (o : nat) : Q :=
  qclamp (-1) 1 (q (dotq (H + I) (joined H (fun i => q (mgu_forget q H I wf bf h x i * q (h i))) (fun i => q (x i)))
                        (fun i => q (wn o i)) + q (bn o)))%Q.
Definition mgu_next (H I : nat) (wf wn : nat -> nat -> Q) (bf bn : nat -> Q) (h x : nat -> Q) (o : nat) : Q :=
  let f := mgu_forget (fun v => v) H I wf bf h x o in
  let n := mgu_new (fun v => v) H I wf wn bf bn h x o in
  ((1 - f) * n + f * h o)%Q.
Definition mgu_next_fxp (q : Q -> Q) (H I : nat) (wf wn : nat -> nat -> Q) (bf bn : nat -> Q) (h x : nat -> Q) (o : nat) : Q :=
  let f := mgu_forget q H I wf bf h x o in
  let n := mgu_new q H I wf wn bf bn h x o in
  (n - q (f * n) + q (f * q (h o)))%Q.
Definition in_unit (x : Q) : Prop := (-1 <= x /\ x <= 1)%Q.
(** The recurrence after all inputs; a missing initial state is zero. *)
Definition mgu_after (next : (nat -> Q) -> (nat -> Q) -> nat -> Q) (h : nat -> Q) (xs : list (nat -> Q)) : nat -> Q := fold_left next xs h.
Definition state_entry (hx : option (list (list Q))) (b o : nat) : Q := match hx with Some h => qentry h b o | None => 0%Q end.

(** RTL against simulator: a stream one clock later with [d] in front; positions where two streams differ. *)
Definition delayed {A : Type} (d : A) (l : list A) : list A := firstn (length l) (d :: l).
Fixpoint differences (a b : list Z) : Z :=
  match a, b with x :: ar, y :: br => (if x =? y then 0 else 1) + differences ar br | _, _ => 0 end.
