(** Property C104: pauses. *)
Require Import Verif.BaseLemmas Verif.StallSpec Verif.AddModel Verif.KernelModel Verif.ShuffleModel Verif.LinearModel Verif.ConvModel Verif.NetSpec Verif.ChainSpec Verif.ShiftSpec Verif.ShiftProof Verif.StallProof.
Open Scope Z_scope.

(** Static unipolar FSUMul: zeros put into the input come out as zeros in the same places and change nothing else. *)
Theorem C104_mul : forall B rng gaps xs, (0 < length rng)%nat -> bits xs ->
  outs (fsumul_static_step Unipolar B rng) fsumul_static_init (stall 0 gaps xs) = stall 0 gaps (outs (fsumul_static_step Unipolar B rng) fsumul_static_init xs).
Proof. exact mul_stall. Qed.
Print Assumptions C104_mul.

(** SkewedSync, any depth, saturated or not, on pauses of both streams. *)
Theorem C104_sync : forall depth gaps h, Forall bitpair h ->
  outs (skewedsync_step depth) skewedsync_init (stall (0, 0) gaps h) = stall (0, 0) gaps (outs (skewedsync_step depth) skewedsync_init h).
Proof. exact skewed_stall. Qed.
Print Assumptions C104_sync.

(** FSUAdd in either mode at its default scale, deep enough, on columns of zeros ... *)
Theorem C104_add : forall c e gaps cols, 0 < e -> resolved_entry None (fa_entry c) e = e -> (resolved_scale None (fa_scale c) e == inject_Z e)%Q ->
  Forall bits cols -> Forall (fun col => zlen col = e) cols -> (inject_Z (2 * e - 1) <= qpow2 (fa_depth c - 2))%Q ->
  outs (fsuadd_step c) (fsuadd_init c) (stall (repeat 0 (Z.to_nat e)) gaps cols) = stall 0 gaps (outs (fsuadd_step c) (fsuadd_init c) cols).
Proof. exact add_stall. Qed.
Print Assumptions C104_add.

(** ... and unipolar at any scale from the number of entries on. *)
Theorem C104_add_scale : forall c e s gaps cols, 0 < e -> resolved_entry None (fa_entry c) e = e -> resolved_scale None (fa_scale c) e = s ->
  fa_mode c = Unipolar -> (inject_Z e <= s)%Q -> (2 * s <= qpow2 (fa_depth c - 2))%Q ->
  Forall bits cols -> Forall (fun col => zlen col = e) cols ->
  outs (fsuadd_step c) (fsuadd_init c) (stall (repeat 0 (Z.to_nat e)) gaps cols) = stall 0 gaps (outs (fsuadd_step c) (fsuadd_init c) cols).
Proof. exact add_stall_scale. Qed.
Print Assumptions C104_add_scale.

(** A unipolar rate-coded layer without bias at its default scale: every row of the batch may pause at its own times, and its outputs pause with it. *)
Theorem C104_layer : forall l B gaps h h', patient l -> (1 <= B)%nat -> Forall (batch_ok B (pc_in (fst l))) h -> Forall (batch_ok B (pc_in (fst l))) h' ->
  (forall b, (b < B)%nat -> length h' = length (stall tt (gaps b) (map (fun _ => tt) h))) -> stalled B (pc_in (fst l)) gaps h h' ->
  exists os os',
    outputs (run_r (flin_step (fst l) (flin_acc_cfg (fst l) None (snd l))) (flin_init (fst l)) (no_args h)) = Some os /\
    outputs (run_r (flin_step (fst l) (flin_acc_cfg (fst l) None (snd l))) (flin_init (fst l)) (no_args h')) = Some os' /\
    length os = length h /\ length os' = length h' /\
    Forall (batch_ok B (pc_out (fst l))) os /\ Forall (batch_ok B (pc_out (fst l))) os' /\ stalled B (pc_out (fst l)) gaps os os'.
Proof. exact linear_stall. Qed.
Print Assumptions C104_layer.

(** A network of any number of such layers. *)
Theorem C104_net : forall ls, Forall patient ls -> forall n B gaps h h', fitted n ls -> (1 <= B)%nat ->
  Forall (batch_ok B n) h -> Forall (batch_ok B n) h' ->
  (forall b, (b < B)%nat -> length h' = length (stall tt (gaps b) (map (fun _ => tt) h))) -> stalled B n gaps h h' ->
  exists os os',
    outputs (run_r (net_step (map plain ls)) (net_init (map plain ls)) h) = Some os /\
    outputs (run_r (net_step (map plain ls)) (net_init (map plain ls)) h') = Some os' /\
    length os = length h /\ length os' = length h' /\ stalled B (width_out n ls) gaps os os'.
Proof. exact net_stall. Qed.
Print Assumptions C104_net.

(** FSUConv2d, every image of the batch with its own pauses, whatever the border. *)
Theorem C104_conv : forall c depth p N H W ho wo h h' gaps, patient (cv_pc c, depth) -> conv_geom c p H W ho wo -> (1 <= N)%nat ->
  Forall (tensor_ok bit N (cv_chan c) H W) h -> Forall (tensor_ok bit N (cv_chan c) H W) h' ->
  (forall n, (n < N)%nat -> length h' = length (stall tt (gaps n) (map (fun _ => tt) h))) ->
  (forall n ch y x, (n < N)%nat -> (ch < cv_chan c)%nat -> (y < H)%nat -> (x < W)%nat -> lane4 h' n ch y x = stall 0 (gaps n) (lane4 h n ch y x)) ->
  exists os os',
    outputs (run_r (fconv_step c (flin_acc_cfg (cv_pc c) None depth)) (fconv_init c) (no_args4 h)) = Some os /\
    outputs (run_r (fconv_step c (flin_acc_cfg (cv_pc c) None depth)) (fconv_init c) (no_args4 h')) = Some os' /\
    length os = length h /\ length os' = length h' /\
    forall n o y x, (n < N)%nat -> (o < pc_out (cv_pc c))%nat -> (y < ho)%nat -> (x < wo)%nat -> lane4 os' n o y x = stall 0 (gaps n) (lane4 os n o y x).
Proof. exact conv_stall. Qed.
Print Assumptions C104_conv.

(** Where it fails. A bipolar multiplier, for which a zero is a number; *)
Theorem C104_bipolar_mul_refuted : exists B rng gaps xs, perm_seq 2 rng /\ bits xs /\
  outs (fsumul_static_step Bipolar B rng) fsumul_static_init (stall 0 gaps xs) <> stall 0 gaps (outs (fsumul_static_step Bipolar B rng) fsumul_static_init xs).
Proof.
  exists 1, [0; 2; 1; 3], [2%nat], [1; 1]. split; [apply perm_skip, perm_swap|]. split; [repeat constructor; right; reflexivity|]. vm_compute. discriminate.
Qed.
Print Assumptions C104_bipolar_mul_refuted.
(** the multiplier of two streams, whose register shifts in every cycle, even if both pause; *)
Theorem C104_stream_mul_refuted : exists rng gaps h, perm_seq 1 rng /\ Forall bitpair h /\
  outs (fsumul_is_step Unipolar 1 rng) (fsumul_is_init 1) (stall (0, 0) gaps h) <> stall 0 gaps (outs (fsumul_is_step Unipolar 1 rng) (fsumul_is_init 1) h).
Proof.
  exists [0; 1], [0%nat; 2%nat], [(1, 1); (1, 0)]. split; [apply Permutation.Permutation_refl|]. split; [repeat constructor; first [right; reflexivity|left; reflexivity]|]. vm_compute. discriminate.
Qed.
Print Assumptions C104_stream_mul_refuted.
(** an adder below its default scale, which works off its backlog in the pause; *)
Theorem C104_nonscaled_refuted : exists depth gaps cols, Forall bits cols /\ Forall (fun col => zlen col = 2) cols /\
  let c := {| fa_mode := Unipolar; fa_scale := Some 1%Q; fa_depth := depth; fa_entry := None |} in
  outs (fsuadd_step c) (fsuadd_init c) (stall [0; 0] gaps cols) <> stall 0 gaps (outs (fsuadd_step c) (fsuadd_init c) cols).
Proof.
  exists 8, [0%nat; 1%nat], [[1; 1]; [0; 0]]. split; [repeat constructor; first [right; reflexivity|left; reflexivity]|]. split; [repeat constructor|]. vm_compute. discriminate.
Qed.
Print Assumptions C104_nonscaled_refuted.
(** a layer with a bias, and one with temporally coded weights. *)
Definition ex_pl (wtc : bool) (b : option (list Z)) : pc_cfg :=
  {| pc_mode := Unipolar; pc_wtc := wtc; pc_rng := [0; 2; 1; 3]; pc_in := 2; pc_out := 1; pc_weight := [[2; 3]]; pc_bias := b |}.
Definition ex_pr (c : pc_cfg) (h : list (list (list Z))) := outputs (run_r (flin_step c (flin_acc_cfg c None 8)) (flin_init c) (no_args h)).
Theorem C104_bias_refuted : exists h gaps os os', sound (ex_pl false (Some [4]), 8) /\ Forall (batch_ok 1 2) h /\
  ex_pr (ex_pl false (Some [4])) h = Some os /\ ex_pr (ex_pl false (Some [4])) (stall [[0; 0]] gaps h) = Some os' /\ lane os' 0 0 <> stall 0 gaps (lane os 0 0).
Proof.
  exists [[[1; 1]]; [[1; 1]]], [0%nat; 3%nat]. do 2 eexists. split; [unfold sound, pc_shape; cbn; repeat split; try lia; try (repeat constructor); vm_compute; discriminate|].
  split; [repeat constructor; right; reflexivity|]. split; [vm_compute; reflexivity|]. split; [vm_compute; reflexivity|]. vm_compute. discriminate.
Qed.
Print Assumptions C104_bias_refuted.
Theorem C104_temporal_refuted : exists h gaps os os', Forall (batch_ok 1 2) h /\
  ex_pr (ex_pl true None) h = Some os /\ ex_pr (ex_pl true None) (stall [[0; 0]] gaps h) = Some os' /\ lane os' 0 0 <> stall 0 gaps (lane os 0 0).
Proof.
  exists [[[1; 1]]; [[1; 1]]], [3%nat]. do 2 eexists.
  split; [repeat constructor; right; reflexivity|]. split; [vm_compute; reflexivity|]. split; [vm_compute; reflexivity|]. vm_compute. discriminate.
Qed.
Print Assumptions C104_temporal_refuted.

Definition ex_ph : list (list (list Z)) := [[[1; 1]; [0; 1]]; [[1; 0]; [1; 1]]; [[1; 1]; [1; 1]]; [[0; 1]; [1; 0]]].
(** The first row pauses once before its second batch and twice before its fourth, the second before its first and third batch and at the end. *)
Definition ex_ph' : list (list (list Z)) := [[[1; 1]; [0; 0]]; [[0; 0]; [0; 1]]; [[1; 0]; [1; 1]]; [[1; 1]; [0; 0]]; [[0; 0]; [1; 1]]; [[0; 0]; [1; 0]]; [[0; 1]; [0; 0]]].
Definition ex_pg (b : nat) : list nat := match b with O => [0; 1; 0; 2]%nat | _ => [1; 0; 1; 0; 1]%nat end.
Example C104_ex :
  patient (ex_pl false None, 8) /\ Forall (batch_ok 2 2) ex_ph /\ Forall (batch_ok 2 2) ex_ph' /\
  stalled 2 2 ex_pg ex_ph ex_ph' /\
  ex_pr (ex_pl false None) ex_ph = Some [[[1]; [0]]; [[0]; [1]]; [[1]; [1]]; [[0]; [0]]] /\
  ex_pr (ex_pl false None) ex_ph' = Some [[[1]; [0]]; [[0]; [0]]; [[0]; [1]]; [[1]; [0]]; [[0]; [1]]; [[0]; [0]]; [[0]; [0]]] /\
  stall 0 (ex_pg 1) [0; 1; 1; 0] = [0; 0; 1; 0; 1; 0; 0].
Proof.
  split; [unfold patient, sound, pc_shape; cbn; repeat split; try lia; try (repeat constructor); vm_compute; discriminate|].
  assert (Hb : forall h, forallb (fun bt => Nat.eqb (length bt) 2 && forallb (fun r => Nat.eqb (length r) 2 && forallb (fun x => (x =? 0) || (x =? 1)) r) bt) h = true -> Forall (batch_ok 2 2) h).
  { intros h Hh. rewrite forallb_forall in Hh. apply Forall_forall. intros bt Hbt. specialize (Hh bt Hbt). apply andb_prop in Hh. destruct Hh as [L Hr].
    split; [apply Nat.eqb_eq; exact L|]. rewrite forallb_forall in Hr. apply Forall_forall. intros r Hrr. specialize (Hr r Hrr). apply andb_prop in Hr. destruct Hr as [L' Hx].
    split; [apply Nat.eqb_eq; exact L'|]. rewrite forallb_forall in Hx. apply Forall_forall. intros x Hxx. specialize (Hx x Hxx). unfold bit. lia. }
  split; [apply Hb; reflexivity|]. split; [apply Hb; reflexivity|].
  split; [|repeat split; vm_compute; reflexivity].
  intros b i Hb2 Hi. destruct b as [|[|b]]; [| |lia]; (destruct i as [|[|i]]; [| |lia]); reflexivity.
Qed.
