(** Properties of the streaming kernels in /repo/kernel (C13-C22, C27-C29). *)
Require Import Verif.BaseLemmas Verif.GenModel Verif.AddModel Verif.KernelModel.
Require Import Verif.GenProof Verif.AddProof Verif.KernelProof.
Open Scope Z_scope.

(** ** C13 *)
Theorem C13_scaled_add_exact : forall c e cols,
  0 < e ->
  resolved_entry None (fa_entry c) e = e ->
  (resolved_scale None (fa_scale c) e == inject_Z e)%Q ->
  Forall bits cols -> Forall (fun col => zlen col = e) cols ->
  (inject_Z (2 * e - 1) <= qpow2 (fa_depth c - 2))%Q ->
  ones (outs (fsuadd_step c) (fsuadd_init c) cols) = total_ones cols / e.
Proof. exact fsuadd_scaled_exact. Qed.
Print Assumptions C13_scaled_add_exact.

Theorem C13_scaled_add_floor : forall c e s cols,
  0 < e ->
  resolved_entry None (fa_entry c) e = e ->
  resolved_scale None (fa_scale c) e = s ->
  (inject_Z e <= s)%Q -> (2 * s <= qpow2 (fa_depth c - 2))%Q ->
  Forall bits cols -> Forall (fun col => zlen col = e) cols ->
  ones (outs (fsuadd_step c) (fsuadd_init c) cols) =
  Qfloor ((inject_Z (total_ones cols) - inject_Z (zlen cols) * mode_offset (fa_mode c) e s) / s).
Proof. exact fsuadd_floor. Qed.
Print Assumptions C13_scaled_add_floor.

Definition add_cfg3 (m : mode) : fsuadd_cfg := {| fa_mode := m; fa_scale := None; fa_depth := 5; fa_entry := None |}.
Example C13_ex : let cols := [[1; 0; 1]; [1; 1; 1]; [0; 0; 1]] in
  resolved_entry None (fa_entry (add_cfg3 Bipolar)) 3 = 3 /\
  (resolved_scale None (fa_scale (add_cfg3 Bipolar)) 3 == inject_Z 3)%Q /\
  Forall bits cols /\ Forall (fun col => zlen col = 3) cols /\
  (inject_Z (2 * 3 - 1) <= qpow2 (fa_depth (add_cfg3 Bipolar) - 2))%Q /\
  outs (fsuadd_step (add_cfg3 Bipolar)) (fsuadd_init (add_cfg3 Bipolar)) cols = [0; 1; 1].
Proof.
  split; [reflexivity|]. split; [reflexivity|]. split; [repeat constructor; unfold bit; lia|].
  split; [repeat constructor|]. split; [vm_compute; discriminate|vm_compute; reflexivity].
Qed.

(** ** C14 *)
Theorem C14_add_conserves : forall c e s cols,
  resolved_entry None (fa_entry c) e = e ->
  resolved_scale None (fa_scale c) e = s ->
  (0 < s)%Q -> Forall bits cols -> Forall (fun col => zlen col = e) cols ->
  let off := mode_offset (fa_mode c) e s in
  let lim := qpow2 (fa_depth c - 2) in
  let out h := ones (outs (fsuadd_step c) (fsuadd_init c) h) in
  let received h := (inject_Z (total_ones h) - inject_Z (zlen h) * off)%Q in
  let acc := fs_acc (final (fsuadd_step c) (fsuadd_init c) cols) in
  ((- lim <= acc)%Q /\ (acc <= lim)%Q) /\
  ((forall pre col post, cols = pre ++ col :: post ->
      (- lim <= received (pre ++ [col]) - s * inject_Z (out pre))%Q /\
      (received (pre ++ [col]) - s * inject_Z (out pre) <= lim)%Q) ->
   (s * inject_Z (out cols) + acc == received cols)%Q /\
   (Qabs (received cols - s * inject_Z (out cols)) <= lim)%Q).
Proof. exact fsuadd_conserve. Qed.
Print Assumptions C14_add_conserves.
(** Unscaled bipolar addition of two streams: the accumulator goes negative and comes back. *)
Definition add_cfg1 : fsuadd_cfg := {| fa_mode := Bipolar; fa_scale := Some 1%Q; fa_depth := 5; fa_entry := None |}.
Example C14_ex : let cols := [[0; 0]; [1; 0]; [1; 1]; [1; 1]] in
  outs (fsuadd_step add_cfg1) (fsuadd_init add_cfg1) cols = [0; 0; 1; 1] /\
  (fs_acc (final (fsuadd_step add_cfg1) (fsuadd_init add_cfg1) cols) == 1)%Q /\
  (inject_Z (total_ones cols) - inject_Z (zlen cols) * mode_offset Bipolar 2 1 == 3)%Q.
Proof. repeat split; vm_compute; reflexivity. Qed.

(** ** C15 *)
Theorem C15_dead_adder : forall c e cols,
  let en := resolved_entry None (fa_entry c) e in
  (qpow2 (fa_depth c - 2) < resolved_scale None (fa_scale c) en)%Q ->
  Forall (fun col => zlen col = e) cols ->
  outs (fsuadd_step c) (fsuadd_init c) cols = repeat 0 (length cols).
Proof. exact fsuadd_dead. Qed.
Print Assumptions C15_dead_adder.
(** 257 entries, default scale, depth 10. *)
Example C15_ex : let c := {| fa_mode := Bipolar; fa_scale := None; fa_depth := 10; fa_entry := None |} in
  (qpow2 (fa_depth c - 2) < resolved_scale None (fa_scale c) (resolved_entry None (fa_entry c) 257))%Q /\
  zlen (repeat 1 257) = 257.
Proof. split; vm_compute; reflexivity. Qed.

(** ** C16 *)
Theorem C16_add_latches : forall c col sc en calls,
  let e := resolved_entry en (fa_entry c) (zlen col) in
  let s := resolved_scale sc (fa_scale c) e in
  let c' := {| fa_mode := fa_mode c; fa_scale := Some s; fa_depth := fa_depth c; fa_entry := Some e |} in
  outs (fsuadd_call c) (fsuadd_init c) ((col, sc, en) :: calls) =
  outs (fsuadd_step c') (fsuadd_init c') (col :: map (fun x => fst (fst x)) calls).
Proof. exact fsuadd_latch. Qed.
Print Assumptions C16_add_latches.
Example C16_ex : 
  outs (fsuadd_call (add_cfg3 Unipolar)) (fsuadd_init (add_cfg3 Unipolar))
    [([1; 1; 0], Some 2%Q, None); ([1; 1; 0], Some 1%Q, None); ([1; 0; 0], None, Some 7)] = [1; 1; 0].
Proof. vm_compute. reflexivity. Qed.

(** ** C17 *)
Theorem C17_mul_counts : forall m B rng xs, (0 < length rng)%nat -> bits xs ->
  let o := outs (fsumul_static_step m B rng) fsumul_static_init xs in
  bits o /\
  ones o = below rng B (Z.to_nat (ones xs)) +
           match m with Unipolar => 0 | Bipolar => zeros xs - below rng B (Z.to_nat (zeros xs)) end.
Proof. exact mul_static_count. Qed.
Print Assumptions C17_mul_counts.

Theorem C17_mul_order : forall m B rng xs ys, (0 < length rng)%nat -> bits xs -> Permutation xs ys ->
  ones (outs (fsumul_static_step m B rng) fsumul_static_init ys) =
  ones (outs (fsumul_static_step m B rng) fsumul_static_init xs).
Proof. exact mul_static_order. Qed.
Print Assumptions C17_mul_order.
Example C17_ex : bits [1; 0; 1; 1] /\ Permutation [1; 0; 1; 1] [0; 1; 1; 1] /\
  outs (fsumul_static_step Bipolar 3 [0; 2; 1; 3]) fsumul_static_init [1; 0; 1; 1] = [1; 0; 1; 1] /\
  outs (fsumul_static_step Bipolar 3 [0; 2; 1; 3]) fsumul_static_init [0; 1; 1; 1] = [0; 1; 1; 1].
Proof. split; [repeat constructor; unfold bit; lia|]. split; [constructor|split; reflexivity]. Qed.

(** ** C18 *)
Theorem C18_mul_exact : forall m w rng B xs, perm_seq w rng -> 0 <= B <= p2 w -> bits xs ->
  (p2 w | ones xs) -> (m = Bipolar -> (p2 w | zeros xs)) ->
  ones (outs (fsumul_static_step m B rng) fsumul_static_init xs) * p2 w =
  ones xs * B + match m with Unipolar => 0 | Bipolar => zeros xs * (p2 w - B) end.
Proof. exact mul_static_exact. Qed.
Print Assumptions C18_mul_exact.

Theorem C18_mul_product : forall m w rng B xs, perm_seq w rng -> 0 <= B <= p2 w -> bits xs -> xs <> [] ->
  (p2 w | ones xs) -> (m = Bipolar -> (p2 w | zeros xs)) ->
  (value m (outs (fsumul_static_step m B rng) fsumul_static_init xs) == value m xs * grid_value m w B)%Q.
Proof. exact mul_static_product. Qed.
Print Assumptions C18_mul_product.
Example C18_ex : perm_seq 1 [1; 0] /\ bits [1; 0; 1; 0; 1; 1] /\ (p2 1 | ones [1; 0; 1; 0; 1; 1]) /\
  (p2 1 | zeros [1; 0; 1; 0; 1; 1]) /\
  ones (outs (fsumul_static_step Bipolar 1 [1; 0]) fsumul_static_init [1; 0; 1; 0; 1; 1]) = 3.
Proof.
  split; [unfold perm_seq; cbn; constructor|]. split; [repeat constructor; unfold bit; lia|].
  split; [exists 2; reflexivity|]. split; [exists 1; reflexivity|reflexivity].
Qed.

(** ** C19 *)
Theorem C19_mul_sobol : forall m ext w d B xs, (w <= 30)%nat ->
  dirvec_ok 30 (ext_dirvec ext d) -> 0 <= B <= p2 w -> bits xs ->
  let o := outs (fsumul_static_step m B (rng_seq ext KSobol w d)) fsumul_static_init xs in
  match m with
  | Unipolar => Z.abs (ones o * p2 w - ones xs * B) <= Z.of_nat w * p2 w
  | Bipolar => Z.abs (ones o * p2 w - (ones xs * B + zeros xs * (p2 w - B))) <= 2 * Z.of_nat w * p2 w
  end.
Proof. exact mul_static_sobol. Qed.
Print Assumptions C19_mul_sobol.
Definition ex_vdc : rng_ext :=
  {| ext_dirvec := fun _ j => p2 (29 - j); ext_lfsr_next := fun s => s; ext_lfsr_init := []; ext_randperm := [] |}.
Example C19_ex : dirvec_ok 30 (ext_dirvec ex_vdc 1) /\
  outs (fsumul_static_step Unipolar 3 (rng_seq ex_vdc KSobol 3 1)) fsumul_static_init [1; 1; 0; 1; 1; 1] = [1; 0; 0; 0; 1; 0].
Proof.
  split; [|vm_compute; reflexivity].
  intros j Hj. exists 1. split; [|split; [reflexivity|]].
  - rewrite Z.mul_1_l. reflexivity.
  - rewrite p2_S. pose proof (p2_pos j). lia.
Qed.

(** ** C20 *)
Theorem C20_instream_mul : forall m w rng h k, length rng = (2 ^ w)%nat ->
  Forall (fun p => bit (fst p) /\ bit (snd p)) h -> (k < length h)%nat ->
  nth k (outs (fsumul_is_step m w rng) (fsumul_is_init w) h) 0 =
  let past := firstn k h in
  let x := fst (nth k h (0, 0)) in
  let W := ones (window w (map snd past)) in
  if x =? 1 then b2z (cyc rng (Z.to_nat (ones (map fst past))) <? W)
  else match m with
       | Unipolar => 0
       | Bipolar => 1 - b2z (cyc rng (Z.to_nat (zeros (map fst past))) <? W)
       end.
Proof. exact is_out. Qed.
Print Assumptions C20_instream_mul.
Example C20_ex :
  outs (fsumul_is_step Bipolar 2 [0; 2; 1; 3]) (fsumul_is_init 2) [(1, 1); (1, 1); (0, 0); (1, 1); (0, 1)] = [1; 1; 0; 1; 0] /\
  window 2 [1; 1] = [0; 1; 1; 1].
Proof. split; reflexivity. Qed.

(** ** C21 *)
Theorem C21_shiftreg : forall n h k, (1 <= n)%nat -> Forall mask_ok h -> (k < length h)%nat ->
  let past := recent n (enabled (firstn k h)) in
  let i := snd (nth k h (0, None, 0)) in
  nth k (outs shiftreg_step (shiftreg_init n) h) (0, 0) = (nth (Z.to_nat i) past 0, zsum past) /\
  length past = n /\
  (bits (enabled (firstn k h)) -> zsum past = ones past).
Proof. exact shiftreg_out. Qed.
Print Assumptions C21_shiftreg.

Theorem C21_shiftreg_delay : forall n past i, (i < n)%nat -> (n - i <= length past)%nat ->
  nth i (recent n past) 0 = nth (length past - (n - i)) past 0.
Proof. exact recent_nth. Qed.
Print Assumptions C21_shiftreg_delay.

Theorem C21_shiftreg_masked : forall n h1 h2 x i, (1 <= n)%nat -> Forall mask_ok h1 ->
  final shiftreg_step (shiftreg_init n) (h1 ++ (x, Some 0, i) :: h2) =
  final shiftreg_step (shiftreg_init n) (h1 ++ h2) /\
  outs shiftreg_step (final shiftreg_step (shiftreg_init n) (h1 ++ [(x, Some 0, i)])) h2 =
  outs shiftreg_step (final shiftreg_step (shiftreg_init n) h1) h2.
Proof. exact shiftreg_masked. Qed.
Print Assumptions C21_shiftreg_masked.
Example C21_ex : let h := [(1, None, 0); (1, Some 0, 1); (1, Some 1, 2); (0, None, 3); (0, None, 3)] in
  Forall mask_ok h /\ outs shiftreg_step (shiftreg_init 4) h = [(0, 2); (0, 3); (1, 3); (1, 3); (0, 3)].
Proof. split; [repeat constructor; cbn; unfold bit; lia|reflexivity]. Qed.

(** ** C22 *)
Theorem C22_jkff : forall h,
  (forall pre p post, h = pre ++ p :: post -> Forall no_force post ->
     (jk_set p -> final jkff_step jkff_init h = (1 + jk_toggles post) mod 2) /\
     (jk_reset p -> final jkff_step jkff_init h = jk_toggles post mod 2)) /\
  (Forall no_force h -> final jkff_step jkff_init h = jk_toggles h mod 2) /\
  (forall k, (k < length h)%nat ->
     nth k (outs jkff_step jkff_init h) 0 = final jkff_step jkff_init (firstn (S k) h)).
Proof. exact jkff_all. Qed.
Print Assumptions C22_jkff.

Theorem C22_jkff_runs : forall pre L, pre = [] \/ (exists p, pre = p ++ [(0, 1)]) ->
  let run := outs jkff_step (final jkff_step jkff_init pre) (repeat (1, 1) L) in
  run = map (fun x => 1 - x) (alternating L) /\ ones run = (Z.of_nat L + 1) / 2.
Proof. exact jkff_runs_full. Qed.
Print Assumptions C22_jkff_runs.
Example C22_ex : let h := [(1, 0); (1, 1); (0, 0); (1, 1); (1, 1)] in
  h = [] ++ (1, 0) :: [(1, 1); (0, 0); (1, 1); (1, 1)] /\ jk_set (1, 0) /\
  Forall no_force [(1, 1); (0, 0); (1, 1); (1, 1)] /\ outs jkff_step jkff_init h = [1; 0; 0; 1; 0].
Proof.
  split; [reflexivity|]. split; [split; cbn; lia|]. split; [|reflexivity].
  repeat constructor; unfold no_force, jk_hold, jk_toggle; cbn; lia.
Qed.

(** ** C27; depth = S d. *)
Theorem C27_signabs : forall d xs, bits xs ->
  let o := outs (fsusignabs_step d) (fsusignabs_init d) xs in
  (forall k, (k < length xs)%nat ->
     bit (fst (nth k o (0, 0))) /\ bit (snd (nth k o (0, 0))) /\
     snd (nth k o (0, 0)) = Z.lxor (fst (nth k o (0, 0))) (nth k xs 0)) /\
  (in_signabs_range d xs ->
     (forall k, (k < length xs)%nat -> (fst (nth k o (0, 0)) = 1 <-> walk (firstn (S k) xs) < 0)) /\
     walk (map snd o) = Z.abs (walk xs) + 2 * returns_to_zero 0 xs).
Proof. exact signabs_all. Qed.
Print Assumptions C27_signabs.
Example C27_ex : let xs := [0; 0; 1; 1; 1; 0; 0] in bits xs /\ in_signabs_range 2 xs /\
  outs (fsusignabs_step 2) (fsusignabs_init 2) xs = [(1, 1); (1, 1); (1, 0); (0, 1); (0, 1); (0, 0); (1, 1)] /\
  returns_to_zero 0 xs = 1.
Proof.
  split; [repeat constructor; unfold bit; lia|]. split; [|split; reflexivity].
  intros [|[|[|[|[|[|[|k]]]]]]]; cbn [firstn]; rewrite ?firstn_nil; split; vm_compute; discriminate.
Qed.

(** ** C28; depth = S d. *)
Theorem C28_relu : forall d xs, bits xs ->
  let o := outs (fsurelu_step d) (fsurelu_init d) xs in
  bits o /\ Forall2 (fun x y => x <= y) xs o /\
  -1 <= walk o /\ reflected_walk xs <= walk o /\
  ((forall k, reflected_walk (firstn k xs) <= p2 d - 1) -> walk o = reflected_walk xs).
Proof. exact relu_all. Qed.
Print Assumptions C28_relu.

Theorem C28_relu_pass : forall d xs, bits xs -> (forall k, -1 <= walk (firstn k xs) <= p2 d - 1) ->
  outs (fsurelu_step d) (fsurelu_init d) xs = xs.
Proof. exact relu_pass. Qed.
Print Assumptions C28_relu_pass.
Example C28_ex : let xs := [0; 0; 0; 0; 1; 1] in bits xs /\ 
  (forall k, reflected_walk (firstn k xs) <= p2 2 - 1) /\
  outs (fsurelu_step 2) (fsurelu_init 2) xs = [0; 1; 0; 1; 1; 1] /\
  (forall k, -1 <= walk (firstn k [0; 1; 1]) <= p2 2 - 1).
Proof.
  split; [repeat constructor; unfold bit; lia|]. split; [|split; [reflexivity|]].
  - intros [|[|[|[|[|[|k]]]]]]; cbn [firstn]; rewrite ?firstn_nil; vm_compute; discriminate.
  - intros [|[|[|k]]]; cbn [firstn]; rewrite ?firstn_nil; split; vm_compute; discriminate.
Qed.

(** ** C29 *)
Theorem C29_hardsigmoid : forall m d xs, 4 <= d -> bits xs ->
  ones (outs (fsuhardsigmoid_step m d) (fsuhardsigmoid_init m d) xs) = (zlen xs + ones xs) / 2.
Proof. exact hardsigmoid_exact. Qed.
Print Assumptions C29_hardsigmoid.

(** The binary counterparts: HUBReLU, HUBHardtanh and HUBHardsigmoid (default scale). *)
Theorem C29_hub_clips : forall scale x, (0 < scale)%Q ->
  ((x <= 0)%Q -> (hubrelu scale x == 0)%Q) /\ ((scale <= x)%Q -> (hubrelu scale x == scale)%Q) /\ ((0 <= x <= scale)%Q -> (hubrelu scale x == x)%Q) /\
  ((x <= -1)%Q -> (hubhardtanh x == -1)%Q) /\ ((1 <= x)%Q -> (hubhardtanh x == 1)%Q) /\ ((-1 <= x <= 1)%Q -> (hubhardtanh x == x)%Q) /\
  ((x <= -1)%Q -> (hubhardsigmoid 3 x == 0)%Q) /\ ((1 <= x)%Q -> (hubhardsigmoid 3 x == 1)%Q) /\
  ((-1 <= x <= 1)%Q -> (hubhardsigmoid 3 x == (x + 1) / 2)%Q).
Proof. exact hub_clips. Qed.
Print Assumptions C29_hub_clips.
(** FSUHardtanh passes every stream unchanged. *)
Theorem C29_fsuhardtanh : forall xs, map fsuhardtanh xs = xs.
Proof. exact fsuhardtanh_id. Qed.
Print Assumptions C29_fsuhardtanh.
Example C29_ex : bits [1; 0; 0; 1] /\
  outs (fsuhardsigmoid_step Bipolar 4) (fsuhardsigmoid_init Bipolar 4) [1; 0; 0; 1] = [1; 0; 1; 1] /\
  hubrelu (3 # 2) 2 = (3 # 2)%Q /\ (hubhardsigmoid 3 (1 # 2) == 3 # 4)%Q /\ hubhardtanh (-7 # 2) = (-1)%Q.
Proof. split; [repeat constructor; unfold bit; lia|]. repeat split; vm_compute; reflexivity. Qed.
