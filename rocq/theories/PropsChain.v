(** Properties C67, C68: FSUAdd and FSULinear with any scale, characterised by the longest climb of the received level. *)
Require Import Verif.BaseLemmas Verif.AddModel Verif.KernelModel Verif.LinearModel Verif.ChainSpec Verif.AddProof Verif.LinearProof Verif.ChainProof.
Open Scope Z_scope.

(** C67. Any scale, either mode: the ones emitted are the length of the longest climb through the level. *)
Theorem C67_add_climbs : forall c e s cols,
  resolved_entry None (fa_entry c) e = e ->
  resolved_scale None (fa_scale c) e = s ->
  (0 < s)%Q -> Forall bits cols -> Forall (fun col => zlen col = e) cols ->
  let level p := (inject_Z (total_ones (firstn p cols)) - inject_Z (Z.of_nat p) * mode_offset (fa_mode c) e s)%Q in
  let out := outs (fsuadd_step c) (fsuadd_init c) cols in
  unclamped (qpow2 (fa_depth c - 2)) s level (fun t => ones (firstn t out)) (length cols) ->
  forall k, Z.of_nat k <= ones out <-> climbs s level (length cols) k.
Proof. exact @fsuadd_climbs. Qed.
Print Assumptions C67_add_climbs.
(** Unipolar: the level never falls, so the climb may be taken as late as possible. *)
Theorem C67_add_unipolar : forall c e s cols,
  fa_mode c = Unipolar ->
  resolved_entry None (fa_entry c) e = e ->
  resolved_scale None (fa_scale c) e = s ->
  (0 < s)%Q -> Forall bits cols -> Forall (fun col => zlen col = e) cols ->
  let n := length cols in
  let out := outs (fsuadd_step c) (fsuadd_init c) cols in
  unclamped (qpow2 (fa_depth c - 2)) s (fun p => inject_Z (total_ones (firstn p cols))) (fun t => ones (firstn t out)) n ->
  forall k, Z.of_nat k <= ones out <->
    (k <= n)%nat /\ forall i, (i < k)%nat -> (s * inject_Z (Z.of_nat i + 1) <= inject_Z (total_ones (firstn (n - k + 1 + i) cols)))%Q.
Proof. exact @fsuadd_unipolar_climbs. Qed.
Print Assumptions C67_add_unipolar.
(** Three inputs added with scale 1: the ones come faster than one per cycle, and what is over is lost if the input ends. *)
Example C67_ex : let c := {| fa_mode := Unipolar; fa_scale := Some 1%Q; fa_depth := 10; fa_entry := None |} in
  let cols := [[1; 1; 1]; [1; 0; 0]; [0; 0; 0]; [0; 1; 0]] in
  outs (fsuadd_step c) (fsuadd_init c) cols = [1; 1; 1; 1] /\
  outs (fsuadd_step c) (fsuadd_init c) (rev cols) = [1; 0; 1; 1] /\
  climbs 1 (fun p => inject_Z (total_ones (firstn p cols))) 4 4 /\
  climbs 1 (fun p => inject_Z (total_ones (firstn p (rev cols)))) 4 3 /\
  ~ climbs 1 (fun p => inject_Z (total_ones (firstn p (rev cols)))) 4 4.
Proof.
  cbn zeta. split; [vm_compute; reflexivity|]. split; [vm_compute; reflexivity|]. split; [|split].
  - exists S. split; [intros; lia|]. split; [intros; lia|]. intros i Hi.
    destruct i as [|[|[|[|i]]]]; try lia; vm_compute; discriminate.
  - exists (fun i => match i with 0 => 1 | 1 => 3 | _ => 4 end)%nat. split; [intros i Hi; destruct i as [|[|[|i]]]; lia|].
    split; [intros i j Hij Hj; destruct i as [|[|[|i]]], j as [|[|[|j]]]; lia|]. intros i Hi.
    destruct i as [|[|[|i]]]; try lia; vm_compute; discriminate.
  - intros (pos & P1 & P2 & P3).
    pose proof (P1 0%nat ltac:(lia)) as A0. pose proof (P1 1%nat ltac:(lia)) as A1. pose proof (P1 2%nat ltac:(lia)) as A2. pose proof (P1 3%nat ltac:(lia)) as A3.
    pose proof (P2 0 1 ltac:(lia) ltac:(lia))%nat. pose proof (P2 1 2 ltac:(lia) ltac:(lia))%nat. pose proof (P2 2 3 ltac:(lia) ltac:(lia))%nat.
    assert (E : pos 1%nat = 2%nat) by lia. pose proof (P3 1%nat ltac:(lia)) as L. rewrite E in L. vm_compute in L. apply L. reflexivity.
Qed.

(** C68. FSULinear with rate coded weights and any positive scale. *)
Theorem C68_linear_climbs : forall c scale depth B h, pc_shape c -> rng_ok c -> pc_wtc c = false -> (1 <= B)%nat ->
  Forall (batch_ok B (pc_in c)) h ->
  let s := match scale with None => inject_Z (flin_entry c) | Some q => q end in
  let lim := qpow2 (depth - 2) in
  (0 < s)%Q ->
  exists os, outputs (run_r (flin_step c (flin_acc_cfg c scale depth)) (flin_init c) (no_args h)) = Some os /\
    length os = length h /\ Forall (batch_ok B (pc_out c)) os /\
    forall b o, (b < B)%nat -> (o < pc_out c)%nat ->
      let products p := zsum (map (fun i => ones (outs (fsumul_static_step (pc_mode c) (entry2 (pc_weight c) o i) (pc_rng c))
                                      fsumul_static_init (firstn p (lane h b i)))) (seq 0 (pc_in c)))
        + match pc_bias c with None => 0 | Some bs => ones (bsgen_stream (nth o bs 0) (pc_rng c) 0 p) end in
      let entries := Z.of_nat (pc_in c) + match pc_bias c with None => 0 | Some _ => 1 end in
      let level p := (inject_Z (products p) - inject_Z (Z.of_nat p) * mode_offset (pc_mode c) entries s)%Q in
      unclamped lim s level (fun t => ones (firstn t (lane os b o))) (length h) ->
      (Qabs (level (length h) - s * inject_Z (ones (lane os b o))) <= lim)%Q /\
      forall k, Z.of_nat k <= ones (lane os b o) <-> climbs s level (length h) k.
Proof. exact @flin_climbs. Qed.
Print Assumptions C68_linear_climbs.
(** Scale 1, where the layer is a saturating sum: 3 entries (two products and the bias). *)
Example C68_ex : let c := {| pc_mode := Bipolar; pc_wtc := false; pc_rng := [0; 2; 3; 1]; pc_in := 2; pc_out := 1;
    pc_weight := [[3; 1]]; pc_bias := Some [3] |} in
  let h := [[[1; 0]]; [[1; 1]]; [[0; 0]]; [[0; 0]]] in
  let level := fun p => (inject_Z (nth p [0; 2; 5; 6; 8]%Z 0%Z) - inject_Z (Z.of_nat p) * mode_offset Bipolar 3 1)%Q in
  pc_shape c /\ rng_ok c /\ Forall (batch_ok 1 2) h /\
  outputs (run_r (flin_step c (flin_acc_cfg c (Some 1%Q) 10)) (flin_init c) (no_args h)) = Some [[[1]]; [[1]]; [[1]]; [[1]]] /\
  (forall p, (p <= 4)%nat -> zsum (map (fun i => ones (outs (fsumul_static_step Bipolar (entry2 (pc_weight c) 0 i) (pc_rng c))
     fsumul_static_init (firstn p (lane h 0 i)))) (seq 0 2)) + ones (bsgen_stream 3 (pc_rng c) 0 p) = nth p [0; 2; 5; 6; 8] 0) /\
  climbs 1 level 4 4.
Proof.
  cbn zeta. split; [|split; [|split; [|split; [|split]]]].
  - split; [reflexivity|]. split; [repeat constructor|reflexivity].
  - unfold rng_ok. cbn. lia.
  - repeat (apply Forall_cons; [split; [reflexivity|]; apply Forall_cons; [|apply Forall_nil]; split; [reflexivity|]; repeat (apply Forall_cons; [(left; reflexivity) || (right; reflexivity)|]); apply Forall_nil|]). apply Forall_nil.
  - vm_compute. reflexivity.
  - intros p Hp. destruct p as [|[|[|[|[|p]]]]]; try lia; vm_compute; reflexivity.
  - exists S. split; [intros; lia|]. split; [intros; lia|]. intros i Hi.
    destruct i as [|[|[|[|i]]]]; try lia; vm_compute; discriminate.
Qed.
