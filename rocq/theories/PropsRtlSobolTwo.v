(** C110: SobolRNGtwo and its LSZ (RtlSobolTwoModel.v). *)
Require Import Verif.BaseLemmas Verif.GenModel Verif.RtlSobolTwoSpec Verif.RtlSobolTwoProof.
Open Scope Z_scope.

(** The merged array holds any two lists of eight vectors, and they come out as eight-bit direction vectors. *)
Theorem C110_merged : forall a b i, vecs a -> vecs b -> (i < 8)%nat ->
  vec_reg0 (merged a b) i = vec_of a i /\ vec_reg1 (merged a b) i = vec_of b i.
Proof. exact merged_vecs. Qed.
Print Assumptions C110_merged.

(** Whatever comes in: each register shows the exclusive or of all vectors chosen for it so far. *)
Theorem C110_values : forall h t, (t < length h)%nat ->
  shows h t = (xor_all (map (fun x => vec_reg0 (fst x) (fst (snd x))) (firstn t h)), xor_all (map (fun x => vec_reg1 (fst x) (snd (snd x))) (firstn t h))).
Proof. exact two_values. Qed.
Print Assumptions C110_values.

(** LSZ: the position of the lowest zero, 7 if there is none, and its mirror image. *)
Theorem C110_lsz : forall x, (x < 256)%nat -> lsz8 (Z.of_nat x) = (Nat.min 7 (lsz (N.of_nat x)), 7 - Nat.min 7 (lsz (N.of_nat x)))%nat.
Proof. exact lsz8_value. Qed.
Print Assumptions C110_lsz.

(** With the lowest zero of a count as index of both, both show the Sobol sequences of their vectors, again and again every 256 clocks. With the
    mirrored index for the second, as LSZ offers it, the second shows the sequence of its vectors taken in the opposite order ... *)
Theorem C110_sobol : forall a b n t, vecs a -> vecs b -> (t < n)%nat ->
  shows (clocks a b both_low n) t = (nth (t mod 256) (sobol_points (vec_of a) 256) 0, nth (t mod 256) (sobol_points (vec_of b) 256) 0) /\
  fst (shows (clocks a b count_idx n) t) = nth (t mod 256) (sobol_points (vec_of a) 256) 0 /\
  snd (shows (clocks a b count_idx n) t) = nth (t mod 256) (sobol_points (fun i => vec_of b (7 - i)) 256) 0.
Proof. exact two_sobol. Qed.
Print Assumptions C110_sobol.

(** ... in which every value still comes once in every 256 clocks ... *)
Theorem C110_perm : forall a b n q, odd_vecs a -> odd_vecs b -> (q * 256 + 256 <= n)%nat ->
  Permutation (map (fun t => fst (shows (clocks a b count_idx n) t)) (seq (q * 256) 256)) (zrange 256) /\
  Permutation (map (fun t => snd (shows (clocks a b count_idx n) t)) (seq (q * 256) 256)) (zrange 256).
Proof. exact two_perm. Qed.
Print Assumptions C110_perm.

(** ... but it is not their Sobol sequence, and for the first dimension the worst there is: 128 clocks in the lower half, then 128 in the upper. *)
Theorem C110_mirrored_refuted : exists a b t, odd_vecs a /\ odd_vecs b /\ snd (shows (clocks a b count_idx 4) t) <> nth (t mod 256) (sobol_points (vec_of b) 256) 0 /\ (t < 4)%nat.
Proof. exact two_not_sobol. Qed.
Print Assumptions C110_mirrored_refuted.
Theorem C110_mirrored_halves : forall a n t, vecs a -> (t < n)%nat ->
  (snd (shows (clocks a [1; 1; 1; 1; 1; 1; 1; 1] count_idx n) t) < 128 <-> (t mod 256 < 128)%nat).
Proof. exact two_reverse_low. Qed.
Print Assumptions C110_mirrored_halves.

(** With a Gray code in place of the count, whatever the vectors, both show on clock 5 what they showed on clock 3. *)
Theorem C110_gray : forall a b n, vecs a -> vecs b -> (6 <= n)%nat -> shows (clocks a b gray_idx n) 5 = shows (clocks a b gray_idx n) 3.
Proof. exact two_gray. Qed.
Print Assumptions C110_gray.

Example C110_ex :
  merged [1; 3; 5; 11; 17; 35; 71; 129] [1; 1; 7; 9; 31; 63; 1; 255] = [511; 385; 383; 383; 281; 287; 285; 259] /\
  map (vec_reg0 [511; 385; 383; 383; 281; 287; 285; 259]) (seq 0 8) = [128; 192; 160; 176; 136; 140; 142; 129] /\
  map (vec_reg1 [511; 385; 383; 383; 281; 287; 285; 259]) (seq 0 8) = [128; 64; 224; 144; 248; 252; 2; 255] /\
  lsz8 0 = (0, 7)%nat /\ lsz8 7 = (3, 4)%nat /\ lsz8 255 = (7, 0)%nat /\
  outs sobol_two sobol_two_init (clocks [1; 3; 5; 11; 17; 35; 71; 129] [1; 1; 7; 9; 31; 63; 1; 255] count_idx 5) =
    [(0, 0); (128, 255); (64, 253); (192, 2); (96, 254)].
Proof. repeat split; vm_compute; reflexivity. Qed.
