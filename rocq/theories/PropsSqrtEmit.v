(** Property C97: what the square root by emission computes. *)
Require Import Verif.BaseLemmas Verif.GenModel Verif.ShuffleModel Verif.AddModel Verif.KernelModel Verif.DivModel Verif.RtlRngProof
  Verif.SqrtEmitSpec Verif.SqrtEmitProof.
Open Scope Z_scope.

(** The law behind the name: the cycles in which the output and the output n cycles earlier are both 1 are as many as the ones of
    the input, up to a constant, in every prefix. So the output squares to the input when it is not correlated with itself n cycles
    later. *)
Theorem C97_square : forall n xs, (1 <= n <= 255)%nat -> bits xs ->
  let o := outs (sqrt_emit_step Unipolar n) (sqrt_emit_init n) xs in
  forall k, (k <= length xs)%nat ->
    - 1 <= ones (firstn k xs) - lag_product n o k <= Z.of_nat n + 1 + (Z.of_nat n + 1) / 2.
Proof. exact emit_square. Qed.
Print Assumptions C97_square.

(** But for an input that repeats after n cycles the output is the input with at most n + n/2 zeros raised, for ever: the value
    computed is that of the input and not its square root. *)
Theorem C97_repeats : forall m n xs, (1 <= n <= 255)%nat -> bits xs -> repeats n xs ->
  let o := outs (sqrt_emit_step m n) (sqrt_emit_init n) xs in
  (forall t, (t < length xs)%nat -> nth t xs 0 <= nth t o 0) /\
  forall k, (k <= length xs)%nat ->
    ones (firstn k xs) <= ones (firstn k o) <= ones (firstn k xs) + Z.of_nat n + Z.of_nat n / 2.
Proof. exact emit_repeats. Qed.
Print Assumptions C97_repeats.

(** Such inputs are what BSGen generates from the Sobol sequence for the multiples of 2^w / 2^j, when entry_sr = 2^(j+1). *)
Theorem C97_generated_repeats : forall ext w j c T, (w <= 30)%nat -> (S j <= w)%nat -> torch_dim1 ext ->
  repeats (2 ^ S j) (bsgen_stream (c * p2 (w - j)) (rng_seq ext KSobol w 1) 0 T).
Proof. exact generated_repeats. Qed.
Print Assumptions C97_generated_repeats.
Theorem C97_generated : forall m ext w j c T, (w <= 30)%nat -> (S j <= w)%nat -> (j <= 6)%nat -> torch_dim1 ext ->
  let xs := bsgen_stream (c * p2 (w - j)) (rng_seq ext KSobol w 1) 0 T in
  let o := outs (sqrt_emit_step m (2 ^ S j)) (sqrt_emit_init (2 ^ S j)) xs in
  ones xs <= ones o <= ones xs + 3 * p2 j.
Proof. exact emit_generated. Qed.
Print Assumptions C97_generated.

(** The alternating stream has value 1/2; whatever even entry_sr up to 254, the square of the output's value stays below 1/3
    once the run is 20 times longer than entry_sr, where the square root asks for 1/2. *)
Theorem C97_half : forall m n p, (1 <= n)%nat -> (2 * n <= 255)%nat ->
  let xs := every_other (2 * p) in
  let o := outs (sqrt_emit_step m (2 * n)) (sqrt_emit_init (2 * n)) xs in
  ones xs = Z.of_nat p /\ zlen xs = 2 * Z.of_nat p /\ ones o <= Z.of_nat p + 3 * Z.of_nat n /\
  ((20 * n <= p)%nat -> 3 * (ones o * ones o) < 2 * (ones xs * zlen xs)).
Proof. exact emit_half. Qed.
Print Assumptions C97_half.

(** So no tolerance below the difference of the two makes "the square of the output's value is the input's value" true, however long
    the stream is run; here for the default entry_sr = 2. *)
Theorem C97_value_refuted : exists m n, forall T0, exists xs, bits xs /\ (T0 <= length xs)%nat /\ 2 * ones xs = zlen xs /\
  let o := outs (sqrt_emit_step m n) (sqrt_emit_init n) xs in 3 * (ones o * ones o) < zlen o * zlen o.
Proof.
  exists Bipolar, 2%nat. intros T0. set (p := Nat.max T0 20). exists (every_other (2 * p)).
  destruct (emit_half Bipolar 1 p ltac:(lia) ltac:(lia)) as (E & L & _ & H). split; [apply every_other_bits|].
  split; [rewrite every_other_len; lia|]. split; [rewrite E, L; lia|]. cbv zeta.
  specialize (H ltac:(lia)). change (2 * 1)%nat with 2%nat in H. rewrite E, L in H.
  unfold zlen in *. rewrite outs_length, L. lia.
Qed.
Print Assumptions C97_value_refuted.

Definition ex_sobol1 : rng_ext := {| ext_dirvec := fun _ j => p2 (29 - j); ext_lfsr_next := fun s => s; ext_lfsr_init := []; ext_randperm := [] |}.
Example C97_ex : torch_dim1 ex_sobol1 /\
  (let xs := [1; 1; 0; 0; 0; 0; 1; 0; 0; 0; 0; 0] in
   let o := outs (sqrt_emit_step Unipolar 2) (sqrt_emit_init 2) xs in
   o = [1; 1; 1; 0; 0; 0; 1; 1; 1; 0; 0; 0] /\ lag_product 2 o 12 = 2 /\ ones xs = 3) /\
  (let xs := bsgen_stream 4 (rng_seq ex_sobol1 KSobol 3 1) 0 12 in
   xs = [1; 0; 0; 1; 1; 0; 0; 1; 1; 0; 0; 1] /\
   outs (sqrt_emit_step Unipolar 4) (sqrt_emit_init 4) xs = [1; 0; 0; 1; 1; 1; 1; 1; 1; 1; 0; 1]) /\
  (* a register of another length does raise the value *)
  (let xs := bsgen_stream 4 (rng_seq ex_sobol1 KSobol 3 1) 0 12 in
   outs (sqrt_emit_step Unipolar 2) (sqrt_emit_init 2) xs = [1; 0; 0; 1; 1; 1; 1; 1; 1; 0; 0; 1]) /\
  every_other 4 = [1; 0; 1; 0] /\ repeats 2 (every_other 4).
Proof.
  split; [intros j Hj; reflexivity|]. split; [vm_compute; auto|]. split; [vm_compute; auto|]. split; [vm_compute; auto|].
  split; [reflexivity|]. intros t Ht. cbn [length every_other map seq] in Ht.
  destruct t as [|[|t]]; [reflexivity|reflexivity|cbn in Ht; lia].
Qed.
