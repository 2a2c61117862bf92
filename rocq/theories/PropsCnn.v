(** Property C79: networks of convolutions, linear layers, activations and flattening, fresh or used before. *)
From Coq Require Import String Lqa.
Require Import Verif.BaseLemmas Verif.SobolProof Verif.GenModel Verif.GenProof Verif.KernelModel Verif.AddModel Verif.LinearModel Verif.LinearProof Verif.ConvModel
  Verif.NameSpec Verif.NewSpec Verif.ConvErrSpec Verif.ProgSpec Verif.NetSpec Verif.TensorModel Verif.TensorSpec Verif.CnnModel Verif.CnnSpec Verif.CnnProof.
Open Scope string_scope. Open Scope list_scope. Open Scope Z_scope.

(** FSUReLU: a stream that strays from v by at most K bits comes out straying from max(v, 0) by a bounded number of bits, whatever the
    counter held before, if the counter is deeper than the largest swing of the stream. *)
Theorem C79_relu : forall d K v (used : bool) pre xs, bits pre -> bits xs -> (used = false -> pre = []) -> (0 <= K)%Q -> (4 * K < inject_Z (p2 d))%Q ->
  progresses Bipolar 0 K v xs ->
  progresses Bipolar 0 (relu_slack used d K) (pos_part v) (outs (fsurelu_step d) (final (fsurelu_step d) (fsurelu_init d) pre) xs).
Proof. exact relu_progress. Qed.
Print Assumptions C79_relu.

(** With a shallower counter it need not: depth 2, a stream of value 0 in runs of three; the output is at 1/3 for ever. *)
Theorem C79_relu_shallow : forall k, (1 <= k)%nat -> let xs := concat (repeat [1; 1; 1; 0; 0; 0] k) in
  progresses Bipolar 0 (3 # 2) 0 xs /\ (value Bipolar (outs (fsurelu_step 1) (fsurelu_init 1) xs) == 1 # 3)%Q.
Proof. exact relu_shallow. Qed.
Print Assumptions C79_relu_shallow.

(** FSUHardsigmoid halves the straying and adds one bit. *)
Theorem C79_hardsigmoid : forall m depth K v pre xs, 4 <= depth -> bits pre -> bits xs -> progresses m 0 K v xs ->
  progresses m 0 (K / 2 + 1) ((v + 1) / 2) (outs (fsuhardsigmoid_step m depth) (final (fsuhardsigmoid_step m depth) (fsuhardsigmoid_init m depth) pre) xs).
Proof. exact hardsigmoid_progress. Qed.
Print Assumptions C79_hardsigmoid.

(** Any sequence of modules that fit. Nothing is raised, and at every cycle of h2 every output has the shape and the rate of the real network
    up to the two error terms. *)
Theorem C79_net : forall ext w m_name r_name m sts Ms, Forall2 (built ext w m_name r_name) sts Ms ->
  names_mode m_name m -> named r_name ["sobol"; "rc"] -> (1 <= w <= 30)%nat ->
  forall s (used : bool) q K h1 h2 v, (0 <= q)%Q -> (0 <= K)%Q -> seq_fits m ext w used sts s K ->
  hist_ok s h1 -> hist_ok s h2 -> (used = false -> h1 = []) ->
  (forall i, valid s i -> (Qabs (v i) <= 1)%Q /\ tracks m q K (v i) (tlane h2 i)) ->
  exists os1 os2, outputs (run_r (m_step (sequential Ms)) (m_init (sequential Ms)) (h1 ++ h2)) = Some (os1 ++ os2) /\
    List.length os1 = List.length h1 /\ List.length os2 = List.length h2 /\ hist_ok (seq_out sts s) os1 /\ hist_ok (seq_out sts s) os2 /\
    forall i, valid (seq_out sts s) i -> (Qabs (real_seq sts s v i) <= 1)%Q /\ tracks m (q_seq m w sts q) (K_seq m w used sts K) (real_seq sts s v i) (tlane os2 i).
Proof. exact net_tracks. Qed.
Print Assumptions C79_net.

(** From real inputs, encoded by Sobol-driven BSGens. *)
Theorem C79_net_encoded : forall ext w m_name r_name m sts Ms, Forall2 (built ext w m_name r_name) sts Ms ->
  names_mode m_name m -> named r_name ["sobol"; "rc"] -> (1 <= w <= 30)%nat ->
  forall s (used : bool) h1 h2 extx dimx x, seq_fits m ext w used sts s (inject_Z (Z.of_nat w)) ->
  hist_ok s h1 -> hist_ok s h2 -> (used = false -> h1 = []) ->
  (forall i, valid s i -> dirvec_ok 30 (ext_dirvec extx (dimx i)) /\ src_ok m (x i) /\
     tlane h2 i = bsgen_stream (bingen m w (x i)) (rng_seq extx KSobol w (dimx i)) 0 (List.length h2)) ->
  exists os1 os2, outputs (run_r (m_step (sequential Ms)) (m_init (sequential Ms)) (h1 ++ h2)) = Some (os1 ++ os2) /\
    List.length os1 = List.length h1 /\ List.length os2 = List.length h2 /\ hist_ok (seq_out sts s) os2 /\
    forall i t, valid (seq_out sts s) i -> (1 <= t <= List.length h2)%nat ->
      (Qabs (value m (firstn t (tlane os2 i)) - real_seq sts s x i)
       <= q_seq m w sts (grid_step m w / 2) + span m * K_seq m w used sts (inject_Z (Z.of_nat w)) / inject_Z (Z.of_nat t))%Q.
Proof. exact net_encoded_tracks. Qed.
Print Assumptions C79_net_encoded.

(** A 2x2 convolution of a 2x3 image with a border, FSUReLU, flatten, a linear layer, FSUHardsigmoid. *)
Definition ex_ext : rng_ext :=
  {| ext_dirvec := fun _ j => p2 (29 - j); ext_lfsr_next := fun s => s; ext_lfsr_init := []; ext_randperm := [] |}.
Definition ex_C : clayer := {| cl_in := 1; cl_out := 2; cl_kernel := (2, 2)%nat; cl_stride := (2, 2)%nat; cl_dil := (1, 1)%nat; cl_pad := 1; cl_bias := true;
  cl_w := [[[[1 # 2; - (1 # 4)]; [1; 1 # 2]]]; [[[- (1 # 2); 1]; [- (1); 1 # 4]]]]%Q; cl_b := Some [1 # 4; - (1 # 2)]%Q; cl_dim := 1; cl_depth := 10 |}.
Definition ex_L : layer := {| ly_in := 8; ly_out := 1; ly_bias := false; ly_w := [[1; - (1 # 2); 1; 1 # 2; 1; 1; 1; 1]]%Q; ly_b := None; ly_dim := 1; ly_depth := 10 |}.
Definition ex_sts : list stage := [Conv ex_C; ReLU 7; Flatten; Lin ex_L; HardSigmoid 10].
Definition ex_x (i : list nat) : Q := match i with [x; y; 0; 0]%nat => nth x (nth y [[1 # 2; - (3 # 4); 1]; [1; - (1 # 4); 1 # 2]]%Q []) 0%Q | _ => 0%Q end.
Definition ex_img (f : list nat -> Z) : tensor Z := mkT [3; 2; 1; 1]%nat f.
(** Some cycles of ones, then one period of an encoded image. *)
Definition ex_h1 (n : nat) : list (tensor Z) := repeat (ex_img (fun _ => 1)) n.
Definition ex_h2 (w : nat) : list (tensor Z) :=
  map (fun t => ex_img (fun i => bsgen_bit (bingen Bipolar w (ex_x i)) (rng_seq ex_ext KSobol w 1) (Z.of_nat t))) (seq 0 (2 ^ w)).
Lemma ex_dirvec : dirvec_ok 30 (ext_dirvec ex_ext 1).
Proof. intros j Hj. exists 1. split; [rewrite Z.mul_1_l; reflexivity|split; [reflexivity|]]. rewrite p2_S. pose proof (p2_pos j). lia. Qed.
Lemma ex_C_ok : clayer_ok Bipolar ex_ext ex_C.
Proof.
  split; [exact ex_dirvec|]. split; [|split; [|vm_compute; discriminate]]; cbn [cl_w cl_b cl_out cl_in cl_kernel ex_C src_opt fst snd]; unfold tensor_ok;
    repeat first [apply Forall_nil | apply Forall_cons | split | discriminate].
Qed.
Lemma ex_L_ok : layer_ok Bipolar ex_ext ex_L.
Proof.
  split; [cbn; lia|]. split; [exact ex_dirvec|]. split; [|split; [exact Logic.I|vm_compute; discriminate]]. cbn [ly_w ex_L].
  repeat first [apply Forall_nil | apply Forall_cons | split | discriminate].
Qed.
Lemma ex_fits w : (1 <= w <= 3)%nat -> seq_fits Bipolar ex_ext w true ex_sts [3; 2; 1; 1]%nat (inject_Z (Z.of_nat w)).
Proof.
  intros Hw. assert (HC : (1 # 2 <= inject_Z (Z.of_nat w))%Q) by (unfold Qle; cbn; lia).
  unfold ex_sts. cbn [seq_fits stage_fits stage_ok]. split; [|split; [split; [exact ex_C_ok|exact HC]|]].
  { cbn [cl_in cl_out ex_C]. repeat split; try lia. exists 2%nat, 2%nat. repeat split; cbn; try lia. }
  split; [exact Logic.I|]. split; [split; [reflexivity|]|].
  { destruct w as [|[|[|[|w]]]]; try lia; vm_compute; reflexivity. }
  split; [split; vm_compute; lia|]. split; [exact Logic.I|]. split; [repeat split; vm_compute; lia|]. split; [exact ex_L_ok|]. split; [exact Logic.I|]. split; [lia|exact Logic.I].
Qed.
(** All hypotheses of C79_net_encoded hold; the output is at 1/2 after one period, the real network is at 333/640. *)
Example C79_ex : (real_seq ex_sts [3; 2; 1; 1]%nat ex_x [0; 0]%nat == 333 # 640)%Q /\ seq_out ex_sts [3; 2; 1; 1]%nat = [1; 1]%nat /\
  seq_fits Bipolar ex_ext 3 true ex_sts [3; 2; 1; 1]%nat 3 /\ hist_ok [3; 2; 1; 1]%nat (ex_h1 1) /\ hist_ok [3; 2; 1; 1]%nat (ex_h2 3) /\
  (forall i, valid [3; 2; 1; 1]%nat i -> src_ok Bipolar (ex_x i) /\ tlane (ex_h2 3) i = bsgen_stream (bingen Bipolar 3 (ex_x i)) (rng_seq ex_ext KSobol 3 1) 0 8) /\
  exists Ms, Forall2 (built ex_ext 3 "bipolar" "sobol") ex_sts Ms /\
    (match outputs (run_r (m_step (sequential Ms)) (m_init (sequential Ms)) (ex_h1 1 ++ ex_h2 3)) with
     | Some os => value Bipolar (tlane (skipn 1 os) [0; 0]%nat) | None => 2 end == 1 # 2)%Q.
Proof.
  split; [vm_compute; reflexivity|]. split; [reflexivity|]. split; [exact (ex_fits 3 ltac:(lia))|].
  assert (BB : forall h, Forall (fun x : tensor Z => exists f, x = ex_img f /\ forall i, bit (f i)) h -> hist_ok [3; 2; 1; 1]%nat h).
  { intros h Hh. eapply Forall_impl; [|exact Hh]. intros x (f & -> & Hf). split; [reflexivity|]. intros i _. apply Hf. }
  split; [apply BB, Forall_forall; intros x Hx; apply repeat_spec in Hx; subst; eexists; split; [reflexivity|]; intros i; right; reflexivity|].
  split.
  { apply BB, Forall_map, Forall_forall. intros t _. eexists. split; [reflexivity|]. intros i. apply GenProof.bsgen_bit_bit. }
  split.
  { intros i Vi. destruct i as [|x [|y [|c [|n [|z l]]]]]; try (cbn in Vi; tauto). cbn in Vi. destruct Vi as (Vx & Vy & Vc & Vn & _).
    assert (c = 0 /\ n = 0)%nat as [-> ->] by lia. destruct x as [|[|[|x]]]; try lia; (destruct y as [|[|y]]; [| |lia]); (split; [split; discriminate|vm_compute; reflexivity]). }
  eexists. split.
  - repeat apply Forall2_cons; [| | | | |apply Forall2_nil]; cbn [built].
    + eexists. split; [vm_compute; reflexivity|reflexivity].
    + reflexivity.
    + reflexivity.
    + eexists. split; [vm_compute; reflexivity|reflexivity].
    + eexists. split; [vm_compute; reflexivity|reflexivity].
  - vm_compute. reflexivity.
Qed.
(** Without the activations, over a period of 64 cycles: 1/32, exactly the real value. *)
Example C79_ex_long : let sts := [Conv ex_C; Flatten; Lin ex_L] in (real_seq sts [3; 2; 1; 1]%nat ex_x [0; 0]%nat == 1 # 32)%Q /\
  exists a b, cbuilds ex_ext 6 "bipolar" "sobol" ex_C a /\ builds ex_ext 6 "bipolar" "sobol" ex_L b /\
  let N := sequential [m_conv a; m_flatten; m_linear b] in
  (match outputs (run_r (m_step N) (m_init N) (ex_h1 4 ++ ex_h2 6)) with Some os => value Bipolar (tlane (skipn 4 os) [0; 0]%nat) | None => 2 end == 1 # 32)%Q.
Proof.
  split; [vm_compute; reflexivity|]. eexists. eexists. split; [vm_compute; reflexivity|]. split; [vm_compute; reflexivity|]. vm_compute. reflexivity.
Qed.
(** A stream of value -1/2: the output settles at 0. A negative value leaves the counter hovering at half. *)
Example C79_relu_ex : outs (fsurelu_step 3) (fsurelu_init 3) [0; 0; 1; 0; 0; 0; 1; 0; 0; 0; 1; 0] = [0; 1; 1; 0; 0; 1; 1; 0; 0; 1; 1; 0].
Proof. reflexivity. Qed.
