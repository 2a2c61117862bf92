(** Property C77: layers in a row, and layers that are used again without a reset. *)
From Coq Require Import String Lqa.
Require Import Verif.BaseLemmas Verif.SobolProof Verif.GenModel Verif.KernelModel Verif.MetricModel
  Verif.LinearModel Verif.LinearProof Verif.NameSpec Verif.NewSpec Verif.ProgSpec Verif.ProgProof Verif.NetSpec Verif.NetProof.
Open Scope string_scope. Open Scope list_scope. Open Scope Z_scope.

(** One layer: whatever h1 carried, and whatever streams h2 carries as long as they progress towards x, the outputs emitted during h2
    progress towards the real average. There is no reset in between. *)
Theorem C77_linear : forall ext w m_name r_name m L c a, builds ext w m_name r_name L (c, a) ->
  names_mode m_name m -> named r_name ["sobol"; "rc"] -> (1 <= w <= 30)%nat -> layer_ok m ext L ->
  forall B (used : bool) h1 h2 x q K, (1 <= B)%nat -> Forall (batch_ok B (ly_in L)) h1 -> Forall (batch_ok B (ly_in L)) h2 ->
  (used = false -> h1 = []) -> (0 <= q)%Q -> (0 <= K)%Q ->
  (forall b i, (b < B)%nat -> (i < ly_in L)%nat -> (Qabs (x b i) <= 1)%Q /\ progresses m q K (x b i) (lane h2 b i)) ->
  exists os1 os2, outputs (run_r (flin_step c a) (flin_init c) (no_args (h1 ++ h2))) = Some (os1 ++ os2) /\
  List.length os1 = List.length h1 /\ List.length os2 = List.length h2 /\ Forall (batch_ok B (ly_out L)) os1 /\ Forall (batch_ok B (ly_out L)) os2 /\
  forall b o, (b < B)%nat -> (o < ly_out L)%nat ->
    (Qabs (real_layer L (x b) o) <= 1)%Q /\
    progresses m (q + grid_step m w / 2) (K + layer_slack m w used + 1) (real_layer L (x b) o) (lane os2 b o).
Proof. exact linear_again. Qed.
Print Assumptions C77_linear.

(** Any number of layers, called in turn at every cycle. *)
Theorem C77_net : forall ext w m_name r_name m, names_mode m_name m -> named r_name ["sobol"; "rc"] -> (1 <= w <= 30)%nat ->
  forall Ls cas, Forall2 (builds ext w m_name r_name) Ls cas -> Forall (layer_ok m ext) Ls ->
  forall n B (used : bool) h1 h2 x q K, chained n Ls -> (1 <= B)%nat -> Forall (batch_ok B n) h1 -> Forall (batch_ok B n) h2 ->
  (used = false -> h1 = []) -> (0 <= q)%Q -> (0 <= K)%Q ->
  (forall b i, (b < B)%nat -> (i < n)%nat -> (Qabs (x b i) <= 1)%Q /\ progresses m q K (x b i) (lane h2 b i)) ->
  exists os1 os2, outputs (run_r (net_step cas) (net_init cas) (h1 ++ h2)) = Some (os1 ++ os2) /\
  List.length os1 = List.length h1 /\ List.length os2 = List.length h2 /\ Forall (batch_ok B (net_out n Ls)) os2 /\
  forall b o, (b < B)%nat -> (o < net_out n Ls)%nat ->
    (Qabs (real_net Ls (x b) o) <= 1)%Q /\
    progresses m (q + inject_Z (zlen Ls) * (grid_step m w / 2)) (K + inject_Z (zlen Ls) * (layer_slack m w used + 1)) (real_net Ls (x b) o) (lane os2 b o).
Proof. exact net_progress. Qed.
Print Assumptions C77_net.

(** From real inputs: encoded by Sobol-driven BSGens of the same width, every layer adds half a grid step and at most 4w+1 bits. *)
Theorem C77_net_encoded : forall ext w m_name r_name m, names_mode m_name m -> named r_name ["sobol"; "rc"] -> (1 <= w <= 30)%nat ->
  forall Ls cas, Forall2 (builds ext w m_name r_name) Ls cas -> Forall (layer_ok m ext) Ls ->
  forall n B h1 h2 extx dimx x, chained n Ls -> (1 <= B)%nat -> Forall (batch_ok B n) h1 -> Forall (batch_ok B n) h2 ->
  (forall b i, (b < B)%nat -> (i < n)%nat -> dirvec_ok 30 (ext_dirvec extx (dimx b i)) /\ src_ok m (x b i) /\
     lane h2 b i = bsgen_stream (bingen m w (x b i)) (rng_seq extx KSobol w (dimx b i)) 0 (List.length h2)) ->
  exists os1 os2, outputs (run_r (net_step cas) (net_init cas) (h1 ++ h2)) = Some (os1 ++ os2) /\
  List.length os1 = List.length h1 /\ List.length os2 = List.length h2 /\
  forall b o t, (b < B)%nat -> (o < net_out n Ls)%nat -> (1 <= t <= List.length h2)%nat ->
    (Qabs (value m (firstn t (lane os2 b o)) - real_net Ls (x b) o)
     <= inject_Z (zlen Ls + 1) * (grid_step m w / 2) +
        span m * inject_Z (Z.of_nat w + zlen Ls * (4 * Z.of_nat w + 1)) / inject_Z (Z.of_nat t))%Q.
Proof. exact net_encoded. Qed.
Print Assumptions C77_net_encoded.

Definition ex_ext : rng_ext :=
  {| ext_dirvec := fun _ j => p2 (29 - j); ext_lfsr_next := fun s => s; ext_lfsr_init := []; ext_randperm := [] |}.
Definition ex_L1 : layer := {| ly_in := 2; ly_out := 2; ly_bias := true; ly_w := [[1 # 2; - (3 # 4)]; [-(1); 1 # 4]]%Q; ly_b := Some [1 # 4; - (1 # 2)]%Q; ly_dim := 1; ly_depth := 10 |}.
Definition ex_L2 : layer := {| ly_in := 2; ly_out := 1; ly_bias := false; ly_w := [[1; - (1 # 2)]]%Q; ly_b := None; ly_dim := 1; ly_depth := 10 |}.
Definition ex_x (i : nat) : Q := nth i [1 # 2; - (3 # 4)]%Q 0%Q.
(** Four cycles of all ones, then 64 cycles of encoded inputs. *)
Definition ex_h1 : list (list (list Z)) := repeat [[1; 1]] 4.
Definition ex_h2 : list (list (list Z)) :=
  map (fun t => [map (fun i => bsgen_bit (bingen Bipolar 6 (ex_x i)) (rng_seq ex_ext KSobol 6 1) (Z.of_nat t)) (seq 0 2)]) (seq 0 64).
Example C77_ex : dirvec_ok 30 (ext_dirvec ex_ext 1) /\ chained 2 [ex_L1; ex_L2] /\ (real_net [ex_L1; ex_L2] ex_x 0 == 53 # 192)%Q /\
  exists ca1 ca2 os, builds ex_ext 6 "bipolar" "sobol" ex_L1 ca1 /\ builds ex_ext 6 "bipolar" "sobol" ex_L2 ca2 /\
    Forall (layer_ok Bipolar ex_ext) [ex_L1; ex_L2] /\
    (forall i, (i < 2)%nat -> src_ok Bipolar (ex_x i) /\ lane ex_h2 0 i = bsgen_stream (bingen Bipolar 6 (ex_x i)) (rng_seq ex_ext KSobol 6 1) 0 64) /\
    outputs (run_r (net_step [ca1; ca2]) (net_init [ca1; ca2]) (ex_h1 ++ ex_h2)) = Some os /\
    (value Bipolar (skipn 4 (lane os 0 0)) == 9 # 32)%Q.
Proof.
  split; [|split; [|split]].
  - intros j Hj. exists 1. split; [rewrite Z.mul_1_l; reflexivity|split; [reflexivity|]]. rewrite p2_S. pose proof (p2_pos j). lia.
  - repeat split.
  - vm_compute. reflexivity.
  - eexists; eexists; eexists. split; [vm_compute; reflexivity|]. split; [vm_compute; reflexivity|]. split; [|split; [|split]].
    + assert (D : dirvec_ok 30 (ext_dirvec ex_ext 1)) by (intros j Hj; exists 1; split; [rewrite Z.mul_1_l; reflexivity|split; [reflexivity|]]; rewrite p2_S; pose proof (p2_pos j); lia).
      apply Forall_cons; [|apply Forall_cons; [|apply Forall_nil]]; (split; [cbn; lia|split; [exact D|split; [|split; [|vm_compute; discriminate]]]]);
        cbn [ly_w ly_b ex_L1 ex_L2 src_opt]; try exact Logic.I; repeat first [apply Forall_nil | apply Forall_cons | split | discriminate].
    + intros i Hi. destruct i as [|[|i]]; [| |lia]; (split; [split; discriminate|vm_compute; reflexivity]).
    + vm_compute. reflexivity.
    + vm_compute. reflexivity.
Qed.
