(** Property C69: names and checks of the stream constructors (/repo/stream/gen.py and every class that takes a mode or an rng). *)
From Coq Require Import String.
Require Import Verif.BaseLemmas Verif.GenModel Verif.NameSpec Verif.GenProof Verif.NameProof.
Open Scope string_scope. Open Scope list_scope. Open Scope Z_scope.

(** RNG accepts exactly eight names, in any case; two names each select Sobol, ascending and descending. *)
Theorem C69_rng_names : forall ext name w d,
  (named name ["sobol"; "rc"] -> rng_new ext name w d = Ok (rng_seq ext KSobol w d)) /\
  (named name ["race"; "tc"] -> rng_new ext name w d = Ok (zrange (2 ^ w))) /\
  (named name ["race10"; "tc10"] -> rng_new ext name w d = Ok (rev (zrange (2 ^ w)))) /\
  (named name ["lfsr"] -> rng_new ext name w d = Ok (get_lfsr_seq w (ext_lfsr_next ext) (ext_lfsr_init ext))) /\
  (named name ["sys"] -> rng_new ext name w d = Ok (ext_randperm ext)) /\
  (~ named name ["sobol"; "race"; "lfsr"; "sys"; "rc"; "tc"; "race10"; "tc10"] -> rng_new ext name w d = Err AssertionError).
Proof. exact @rng_outcomes. Qed.
Print Assumptions C69_rng_names.
(** The name as parsed by the layers. *)
Theorem C69_rng_kinds : forall name,
  (named name ["sobol"; "rc"] -> rng_parse name = Ok KSobol) /\ (named name ["race"; "tc"] -> rng_parse name = Ok KAsc) /\
  (named name ["race10"; "tc10"] -> rng_parse name = Ok KDesc) /\ (named name ["lfsr"] -> rng_parse name = Ok KLfsr) /\
  (named name ["sys"] -> rng_parse name = Ok KSys) /\
  (~ named name ["sobol"; "race"; "lfsr"; "sys"; "rc"; "tc"; "race10"; "tc10"] -> rng_parse name = Err AssertionError).
Proof. exact @rng_names. Qed.
Print Assumptions C69_rng_kinds.
(** Modes. *)
Theorem C69_mode_names : forall name,
  (named name ["unipolar"] -> mode_parse name = Ok Unipolar) /\ (named name ["bipolar"] -> mode_parse name = Ok Bipolar) /\
  (~ named name ["unipolar"; "bipolar"] -> mode_parse name = Err AssertionError).
Proof. exact @mode_names. Qed.
Print Assumptions C69_mode_names.
(** BSGen accepts exactly the sequences whose length is a power of two and reports the exponent. *)
Theorem C69_bsgen_new : forall rng : list Z,
  (forall w, bsgen_new rng = Ok w <-> exists n, w = Z.of_nat n /\ List.length rng = (2 ^ n)%nat) /\
  (bsgen_new rng = Err ValueError <-> rng = []) /\
  (bsgen_new rng = Err AssertionError <-> rng <> [] /\ forall n, List.length rng <> (2 ^ n)%nat).
Proof. exact @bsgen_new_spec. Qed.
Print Assumptions C69_bsgen_new.
(** RawScale accepts exactly the quantiles in (0, 1]. *)
Theorem C69_rawscale_new : forall q,
  ((0 < q <= 1)%Q -> rawscale_new q = Ok q) /\ (~ (0 < q <= 1)%Q -> rawscale_new q = Err AssertionError).
Proof. exact @rawscale_new_spec. Qed.
Print Assumptions C69_rawscale_new.
Example C69_ex : let ext := {| ext_dirvec := fun _ j => p2 (29 - j); ext_lfsr_next := fun s => s; ext_lfsr_init := [1; 0]; ext_randperm := [2; 0; 3; 1] |} in
  named "SyS" ["lfsr"; "sys"] /\ ~ named "sobo" ["sobol"; "rc"] /\ ~ named "[ys" ["sys"] /\
  rng_new ext "tC10" 2 1 = Ok [3; 2; 1; 0] /\ rng_new ext "LFSR" 2 1 = Ok [2; 2; 2; 2] /\ rng_new ext "Rc" 2 1 = Ok [0; 2; 3; 1] /\
  rng_new ext "race 10" 2 1 = Err AssertionError /\ mode_parse "BIPOLAR" = Ok Bipolar /\ mode_parse "BZPOLAR" = Err AssertionError /\
  bsgen_new [5; 5; 5; 5] = Ok 2 /\ bsgen_new [1; 2; 3] = Err AssertionError /\ rawscale_new 0 = Err AssertionError.
Proof.
  split; [apply named_in; [names|cbn; tauto]|].
  split; [rewrite named_in by names; cbn; intuition discriminate|]. split; [rewrite named_in by names; cbn; intuition discriminate|].
  repeat split; vm_compute; reflexivity.
Qed.
