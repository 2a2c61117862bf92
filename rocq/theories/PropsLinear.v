(** Properties C32-C34: the unary linear layers of /repo/kernel/linear.py. *)
From Coq Require Import String.
Require Import Verif.BaseLemmas Verif.KernelModel Verif.LinearModel Verif.LinearProof
  Verif.NameSpec Verif.NameProof.
Open Scope Z_scope.
Ltac batches := unfold batch_ok, bits, bit;
  repeat first [reflexivity | apply Forall_nil | apply Forall_cons | (left; reflexivity) | (right; reflexivity) | split].

(** C32. Every entry is the sum of what in_features separate static FSUMul modules (and a BSGen for the bias) emit. *)
Theorem C32_pc_rate : forall c B h, pc_shape c -> rng_ok c -> pc_wtc c = false -> (1 <= B)%nat ->
  Forall (batch_ok B (pc_in c)) h ->
  exists os, outputs (run_r (pc_step c) (pc_init c) h) = Some os /\ length os = length h /\
    forall t, (t < length h)%nat -> batch_shape B (pc_out c) (nth t os []) /\
    forall b o, (b < B)%nat -> (o < pc_out c)%nat ->
      entry2 (nth t os []) b o =
      zsum (map (fun i => nth t (outs (fsumul_static_step (pc_mode c) (entry2 (pc_weight c) o i) (pc_rng c))
                                      fsumul_static_init (lane h b i)) 0) (seq 0 (pc_in c)))
      + match pc_bias c with None => 0 | Some bs => bsgen_bit (nth o bs 0) (pc_rng c) (Z.of_nat t) end
      /\ 0 <= entry2 (nth t os []) b o <= Z.of_nat (pc_in c) + match pc_bias c with None => 0 | Some _ => 1 end.
Proof. exact pc_rate. Qed.
Print Assumptions C32_pc_rate.
(** Temporal coded weights: all indices advance every cycle. *)
Theorem C32_pc_temporal : forall c B h, pc_shape c -> rng_ok c -> pc_wtc c = true -> (1 <= B)%nat ->
  Forall (batch_ok B (pc_in c)) h ->
  exists os, outputs (run_r (pc_step c) (pc_init c) h) = Some os /\ length os = length h /\
    forall t, (t < length h)%nat -> batch_shape B (pc_out c) (nth t os []) /\
    forall b o, (b < B)%nat -> (o < pc_out c)%nat ->
      entry2 (nth t os []) b o =
      zsum (map (fun i => product_bit (pc_mode c) (nth t (lane h b i) 0)
                            (bsgen_bit (entry2 (pc_weight c) o i) (pc_rng c) (Z.of_nat t))) (seq 0 (pc_in c)))
      + match pc_bias c with None => 0 | Some bs => bsgen_bit (nth o bs 0) (pc_rng c) (Z.of_nat t) end
      /\ 0 <= entry2 (nth t os []) b o <= Z.of_nat (pc_in c) + match pc_bias c with None => 0 | Some _ => 1 end.
Proof. exact pc_temporal. Qed.
Print Assumptions C32_pc_temporal.
(** The batch size is fixed by the first call that has more than one row: a later call with one row is
    silently broadcast to the old batch size, any other size raises. *)
Theorem C32_pc_batch_shrink : forall c B h x, pc_shape c -> (2 <= B)%nat -> h <> [] ->
  Forall (batch_ok B (pc_in c)) h -> batch_ok 1 (pc_in c) [x] ->
  exists os o, outputs (run_r (pc_step c) (pc_init c) (h ++ [[x]])) = Some (os ++ [o]) /\ length os = length h /\ length o = B.
Proof. exact pc_batch_shrink. Qed.
Print Assumptions C32_pc_batch_shrink.
Theorem C32_pc_batch_mismatch : forall c B B' h x, pc_shape c -> (2 <= B)%nat -> h <> [] ->
  Forall (batch_ok B (pc_in c)) h -> batch_ok B' (pc_in c) x -> B' <> B -> B' <> 1%nat ->
  run_r (pc_step c) (pc_init c) (h ++ [x]) = Err RuntimeError.
Proof. exact pc_batch_mismatch. Qed.
Print Assumptions C32_pc_batch_mismatch.
Definition ex_pc : pc_cfg := {| pc_mode := Bipolar; pc_wtc := false; pc_rng := [0; 2; 3; 1]; pc_in := 2; pc_out := 2;
  pc_weight := [[1; 3]; [4; 0]]; pc_bias := Some [2; 3] |}.
Example C32_ex : pc_shape ex_pc /\ rng_ok ex_pc /\
  Forall (batch_ok 2 2) [[[1; 0]; [0; 0]]; [[1; 1]; [1; 0]]; [[0; 1]; [1; 1]]] /\
  outputs (run_r (pc_step ex_pc) (pc_init ex_pc) [[[1; 0]; [0; 0]]; [[1; 1]; [1; 0]]; [[0; 1]; [1; 1]]])
  = Some [[[2; 3]; [1; 2]]; [[1; 2]; [1; 3]]; [[1; 0]; [1; 1]]].
Proof.
  split; [|split; [|split]].
  - split; [reflexivity|]. split; [repeat constructor|reflexivity].
  - unfold rng_ok. cbn. lia.
  - batches.
  - vm_compute. reflexivity.
Qed.
Example C32_ex_temporal : let c := {| pc_mode := Unipolar; pc_wtc := true; pc_rng := [0; 1; 2; 3]; pc_in := 2; pc_out := 1;
  pc_weight := [[1; 3]]; pc_bias := None |} in
  outputs (run_r (pc_step c) (pc_init c) [[[1; 1]]; [[0; 1]]; [[1; 1]]; [[1; 1]]]) = Some [[[2]]; [[1]]; [[1]]; [[0]]].
Proof. vm_compute. reflexivity. Qed.
Example C32_ex_batch :
  outputs (run_r (pc_step ex_pc) (pc_init ex_pc) [[[1; 0]; [0; 0]]; [[1; 1]]]) = Some [[[2; 3]; [1; 2]]; [[1; 2]; [2; 2]]] /\
  run_r (pc_step ex_pc) (pc_init ex_pc) [[[1; 0]; [0; 0]]; [[1; 1]; [1; 0]; [0; 0]]] = Err RuntimeError.
Proof. split; vm_compute; reflexivity. Qed.

(** C33: at every length of the history the ones emitted are the floor of (all product bits so far) / entry. *)
Theorem C33_linear_floor : forall c depth B h, pc_shape c -> rng_ok c -> pc_wtc c = false -> (1 <= B)%nat ->
  0 < flin_entry c -> (inject_Z (2 * flin_entry c - 1) <= qpow2 (depth - 2))%Q ->
  Forall (batch_ok B (pc_in c)) h ->
  exists os, outputs (run_r (flin_step c (flin_acc_cfg c None depth)) (flin_init c) (no_args h)) = Some os /\
    length os = length h /\ Forall (batch_ok B (pc_out c)) os /\
    forall b o, (b < B)%nat -> (o < pc_out c)%nat ->
      ones (lane os b o) =
      (zsum (map (fun i => ones (outs (fsumul_static_step (pc_mode c) (entry2 (pc_weight c) o i) (pc_rng c))
                                      fsumul_static_init (lane h b i))) (seq 0 (pc_in c)))
       + match pc_bias c with None => 0 | Some bs => ones (bsgen_stream (nth o bs 0) (pc_rng c) 0 (length h)) end)
      / (Z.of_nat (pc_in c) + match pc_bias c with None => 0 | Some _ => 1 end).
Proof. exact flin_rate. Qed.
Print Assumptions C33_linear_floor.
Theorem C33_linear_floor_temporal : forall c depth B h, pc_shape c -> pc_wtc c = true -> (1 <= B)%nat ->
  0 < flin_entry c -> (inject_Z (2 * flin_entry c - 1) <= qpow2 (depth - 2))%Q ->
  Forall (batch_ok B (pc_in c)) h ->
  exists os, outputs (run_r (flin_step c (flin_acc_cfg c None depth)) (flin_init c) (no_args h)) = Some os /\
    length os = length h /\ Forall (batch_ok B (pc_out c)) os /\
    forall b o, (b < B)%nat -> (o < pc_out c)%nat ->
      ones (lane os b o) =
      (zsum (map (fun i => zsum (map (fun t => product_bit (pc_mode c) (nth t (lane h b i) 0)
                (bsgen_bit (entry2 (pc_weight c) o i) (pc_rng c) (Z.of_nat t))) (seq 0 (length h)))) (seq 0 (pc_in c)))
       + match pc_bias c with None => 0 | Some bs => ones (bsgen_stream (nth o bs 0) (pc_rng c) 0 (length h)) end)
      / (Z.of_nat (pc_in c) + match pc_bias c with None => 0 | Some _ => 1 end).
Proof. exact flin_temporal. Qed.
Print Assumptions C33_linear_floor_temporal.
(** Whole periods: the ones are the floor of the exact weighted sum ... *)
Theorem C33_linear_periods : forall c depth B h w, pc_shape c -> perm_seq w (pc_rng c) -> pc_wtc c = false -> (1 <= B)%nat ->
  0 < flin_entry c -> (inject_Z (2 * flin_entry c - 1) <= qpow2 (depth - 2))%Q ->
  Forall (batch_ok B (pc_in c)) h ->
  Forall (Forall (in_range w)) (pc_weight c) -> match pc_bias c with None => True | Some bs => Forall (in_range w) bs end ->
  (p2 w | zlen h) ->
  (forall b i, (b < B)%nat -> (i < pc_in c)%nat -> full_periods (pc_mode c) w (lane h b i)) ->
  exists os, outputs (run_r (flin_step c (flin_acc_cfg c None depth)) (flin_init c) (no_args h)) = Some os /\
    length os = length h /\ Forall (batch_ok B (pc_out c)) os /\
    forall b o, (b < B)%nat -> (o < pc_out c)%nat ->
      ones (lane os b o) = flin_weighted c w h b o / (p2 w * flin_entry c).
Proof. exact flin_full. Qed.
Print Assumptions C33_linear_periods.
(** ... so the value is within one output bit below the exact scaled dot product, and equal to it when representable. *)
Theorem C33_linear_value : forall c depth B h w, pc_shape c -> perm_seq w (pc_rng c) -> pc_wtc c = false -> (1 <= B)%nat ->
  0 < flin_entry c -> (inject_Z (2 * flin_entry c - 1) <= qpow2 (depth - 2))%Q ->
  Forall (batch_ok B (pc_in c)) h -> h <> [] ->
  Forall (Forall (in_range w)) (pc_weight c) -> match pc_bias c with None => True | Some bs => Forall (in_range w) bs end ->
  (p2 w | zlen h) ->
  (forall b i, (b < B)%nat -> (i < pc_in c)%nat -> full_periods (pc_mode c) w (lane h b i)) ->
  exists os, outputs (run_r (flin_step c (flin_acc_cfg c None depth)) (flin_init c) (no_args h)) = Some os /\
    forall b o, (b < B)%nat -> (o < pc_out c)%nat ->
      let exact := exact_layer (pc_mode c) w (pc_in c) (nth o (pc_weight c) []) (bias_at c o) (lane h b) in
      (value (pc_mode c) (lane os b o) <= exact)%Q /\
      (exact < value (pc_mode c) (lane os b o) + match pc_mode c with Unipolar => 1 | Bipolar => 2 end / inject_Z (zlen h))%Q /\
      ((p2 w * flin_entry c | flin_weighted c w h b o) -> (value (pc_mode c) (lane os b o) == exact)%Q).
Proof. exact flin_full_value. Qed.
Print Assumptions C33_linear_value.
Definition ex_fl : pc_cfg := {| pc_mode := Unipolar; pc_wtc := false; pc_rng := [0; 1]; pc_in := 2; pc_out := 1;
  pc_weight := [[1; 2]]; pc_bias := None |}.
Example C33_ex : let h := [[[1; 1]]; [[0; 1]]; [[1; 0]]; [[0; 0]]] in
  pc_shape ex_fl /\ 0 < flin_entry ex_fl /\ (inject_Z (2 * flin_entry ex_fl - 1) <= qpow2 (5 - 2))%Q /\
  Forall (batch_ok 1 2) h /\ (p2 1 | zlen h) /\
  (forall b i, (b < 1)%nat -> (i < 2)%nat -> full_periods Unipolar 1 (lane h b i)) /\
  outputs (run_r (flin_step ex_fl (flin_acc_cfg ex_fl None 5)) (flin_init ex_fl) (no_args h)) = Some [[[1]]; [[0]]; [[0]]; [[0]]] /\
  flin_weighted ex_fl 1 h 0 0 = 6 /\
  Qeq (exact_layer Unipolar 1 2 [1; 2] None (lane h 0)) (3 # 8).
Proof.
  cbn zeta. split; [|split; [|split; [|split; [|split; [|split]]]]].
  - split; [reflexivity|]. split; [repeat constructor|exact I].
  - vm_compute. reflexivity.
  - vm_compute. discriminate.
  - batches.
  - exists 2. reflexivity.
  - intros [|b] i Hb Hi; [|lia]. destruct i as [|[|i]]; [| |lia]; (split; [exists 1; reflexivity|discriminate]).
  - repeat split; vm_compute; reflexivity.
Qed.

(** C34: with well-shaped arguments the constructors fail exactly when there is a bias and no bias_ext. *)
Theorem C34_pc_new : forall ext ni no bias we be winit width m_name r_name dimr m k,
  mode_parse m_name = Ok m -> rng_parse r_name = Ok k -> pc_args_ok ni no bias we be winit ->
  match pc_new ext ni no bias we be winit width m_name r_name dimr with
  | Err e => e = AttributeError /\ bias = true /\ be = None
  | Ok c => ~ (bias = true /\ be = None) /\ pc_shape c /\ pc_mode c = m /\ pc_wtc c = is_tc k /\
            pc_in c = ni /\ pc_out c = no /\ (pc_bias c = None <-> bias = false)
  end.
Proof. exact pc_new_outcome. Qed.
Print Assumptions C34_pc_new.
Theorem C34_temporal_names : forall name k, rng_parse name = Ok k -> (is_tc k = true <-> named name ["race"; "tc"; "race10"; "tc10"]%string).
Proof. exact tc_names. Qed.
Print Assumptions C34_temporal_names.
Theorem C34_linear_new : forall ext ni no bias we be winit width m_name r_name dimr scale depth m k,
  mode_parse m_name = Ok m -> rng_parse r_name = Ok k -> pc_args_ok ni no bias we be winit ->
  (scale = None \/ m = Unipolar \/ is_tc k = false) ->
  match flin_new ext ni no bias we be winit width m_name r_name dimr scale depth with
  | Err e => e = AttributeError /\ bias = true /\ be = None
  | Ok (c, a) => ~ (bias = true /\ be = None) /\ pc_shape c /\ pc_mode c = m /\ pc_wtc c = is_tc k /\
            pc_in c = ni /\ pc_out c = no /\ (pc_bias c = None <-> bias = false) /\ a = flin_acc_cfg c scale depth
  end.
Proof. exact flin_new_outcome. Qed.
Print Assumptions C34_linear_new.
Definition ex_ext : rng_ext :=
  {| ext_dirvec := fun _ j => p2 (29 - j); ext_lfsr_next := fun s => s; ext_lfsr_init := []; ext_randperm := [] |}.
Example C34_ex :
  pc_args_ok 2 1 true (Some [[1 # 2; 3 # 4]]) None [] /\
  pc_new ex_ext 2 1 true (Some [[1 # 2; 3 # 4]%Q]) None [] 2 "unipolar" "Sobol" 1 = Err AttributeError /\
  pc_new ex_ext 2 1 false (Some [[1 # 2; 3 # 4]%Q]) None [] 2 "unipolar" "Sobol" 1
  = Ok {| pc_mode := Unipolar; pc_wtc := false; pc_rng := [0; 2; 3; 1]; pc_in := 2; pc_out := 1;
          pc_weight := [[2; 3]]; pc_bias := None |} /\
  flin_new ex_ext 2 1 true (Some [[1 # 2; 3 # 4]%Q]) None [] 2 "unipolar" "Sobol" 1 None 12 = Err AttributeError /\
  flin_new ex_ext 2 1 true (Some [[1 # 2; 3 # 4]%Q]) (Some [1%Q]) [] 2 "bipolar" "tc" 1 (Some 1%Q) 12 = Err AssertionError.
Proof. repeat split; vm_compute; reflexivity. Qed.
