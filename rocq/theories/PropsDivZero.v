(** Property C98: what division emits while the divisor is 0, and what that does to the value of the whole output. *)
Require Import Verif.BaseLemmas Verif.GenModel Verif.ShuffleModel Verif.AddModel Verif.KernelModel Verif.DivModel Verif.SqrtEmitSpec Verif.DivZeroProof.
Open Scope Z_scope.

(** In every stretch of L cycles without a divisor one the output has the value of the last 2^w quotients emitted at divisor ones,
    K of which are 1: 2^w times its ones is L * K up to K * (2^w - K), and exactly that when the stretch is a whole number of rounds
    of the sequence, wherever it starts. *)
Theorem C98_zeros : forall c w h, fd_mode c = Unipolar -> fd_entry c = (2 ^ w)%nat -> perm_seq w (fd_rng c) -> Forall bitpair h ->
  exists st o, run_r (fsudiv_step c) (fsudiv_init c) h = Ok (st, o) /\ length o = length h /\
  forall a L, (a + L <= length h)%nat -> (forall k, (a <= k < a + L)%nat -> snd (nth k h (0, 0)) = 0) ->
    let K := ones (recent (2 ^ w) (at_ones (combine (firstn a o) (map snd (firstn a h))))) in
    let got := ones (firstn L (skipn a o)) in
    Z.abs (p2 w * got - Z.of_nat L * K) <= K * (p2 w - K) /\
    (forall q, L = (q * 2 ^ w)%nat -> got = Z.of_nat q * K).
Proof. exact udiv_zeros. Qed.
Print Assumptions C98_zeros.

(** With short stretches the error does not average out. Divisor 1 1 0 0 and dividend 1 0 0 0, repeated: the dividend has half the
    ones of the divisor and no one outside the divisor's, so the quotient asked for is 1/2. With four entries and any Sobol dimension
    the output has value 1/4, for every length of the run. *)
Theorem C98_unlucky : forall c ext d p, fd_mode c = Unipolar -> fd_entry c = 4%nat -> fd_rng c = rng_seq ext KSobol 2 d ->
  dirvec_ok 30 (ext_dirvec ext d) -> let h := again (S p) unlucky in
  exists st o, run_r (fsudiv_step c) (fsudiv_init c) h = Ok (st, o) /\ zlen h = 4 * Z.of_nat (S p) /\ length o = length h /\
    ones (map snd h) = 2 * Z.of_nat (S p) /\ ones (map fst h) = Z.of_nat (S p) /\ ones o = Z.of_nat (S p) + 1.
Proof. exact udiv_unlucky. Qed.
Print Assumptions C98_unlucky.

Definition ex_dz : fsudiv_cfg :=
  {| fd_mode := Unipolar; fd_depth_sa := 3; fd_depth_ss := 2; fd_entry := 4; fd_rng := [0; 2; 3; 1] |}.
Definition ex_dz_ext : rng_ext := {| ext_dirvec := fun _ j => p2 (29 - j); ext_lfsr_next := fun s => s; ext_lfsr_init := []; ext_randperm := [] |}.

(** "The value of the output is the quotient of the values" fails by a quarter on arbitrarily long runs. *)
Theorem C98_value_refuted : exists c, fd_mode c = Unipolar /\ forall T, exists h st o, Forall bitpair h /\ T <= zlen h /\
  run_r (fsudiv_step c) (fsudiv_init c) h = Ok (st, o) /\
  2 * ones (map fst h) = ones (map snd h) /\ 4 * ones o <= zlen o + 4.
Proof.
  exists ex_dz. split; [reflexivity|]. intros T. exists (again (S (Z.to_nat T)) unlucky).
  destruct (udiv_unlucky ex_dz ex_dz_ext 1 (Z.to_nat T)) as (st & o & E & E1 & E2 & E3 & E4 & E5); try reflexivity.
  { intros j Hj. exists 1. split; [cbn [ex_dz_ext ext_dirvec]; rewrite Z.mul_1_l; f_equal; lia|]. split; [reflexivity|].
    rewrite p2_S. pose proof (p2_ge_1 j). lia. }
  exists st, o. split.
  { generalize (S (Z.to_nat T)). induction n as [|n IH]; [constructor|]. cbn [again]. apply Forall_app. split; [exact IH|].
    repeat constructor; unfold bit; cbn; lia. }
  split; [lia|]. split; [exact E|]. split; [lia|]. unfold zlen in *. rewrite E2. lia.
Qed.
Print Assumptions C98_value_refuted.

Example C98_ex : perm_seq 2 (fd_rng ex_dz) /\ rng_seq ex_dz_ext KSobol 2 1 = [0; 2; 3; 1] /\
  (exists st, run_r (fsudiv_step ex_dz) (fsudiv_init ex_dz) (again 3 unlucky) = Ok (st, [1; 0; 0; 1; 1; 0; 0; 0; 1; 0; 0; 0])) /\
  (* a stretch of six zeros after the quotients 1 1 0 1 *)
  (exists st, run_r (fsudiv_step ex_dz) (fsudiv_init ex_dz) [(1, 1); (1, 1); (0, 1); (1, 1); (0, 0); (0, 0); (0, 0); (0, 0); (0, 0); (0, 0)] =
    Ok (st, [1; 1; 0; 1; 1; 0; 1; 1; 1; 0])) /\
  recent 4 (at_ones [(1, 1); (1, 1); (0, 1); (1, 1)]) = [1; 1; 0; 1].
Proof.
  split.
  { unfold perm_seq. cbn. apply perm_skip. apply (Permutation_trans (l' := [2; 1; 3])); [apply perm_skip, perm_swap|apply perm_swap]. }
  split; [vm_compute; reflexivity|]. split; [eexists; vm_compute; reflexivity|]. split; [eexists; vm_compute; reflexivity|reflexivity].
Qed.
