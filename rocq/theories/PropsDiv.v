(** Properties C23-C26, C30, C31: division and square root. *)
Require Import Verif.BaseLemmas Verif.GenModel Verif.ShuffleModel Verif.AddModel Verif.KernelModel Verif.DivModel Verif.DivProof.
Open Scope Z_scope.

(** Sobol sequence of width 2, dimension 4, as used below: 0 2 3 1 is one admissible choice. *)
Definition ex_seq2 : list Z := [0; 2; 3; 1].
Example ex_seq2_ok : index_seq 2 ex_seq2.
Proof. split; [reflexivity|]. repeat constructor; change (p2 2) with 4; lia. Qed.

(** The outputs of a run that raises nothing. *)
Definition out_of {S O} (r : result (S * list O)) : option (list O) := match r with Ok p => Some (snd p) | Err _ => None end.

(** C23: the quotient bit is the dividend bit at divisor ones, else the recorded bit the sequence selects;
    only bits at divisor ones are recorded. *)
Theorem C23_cordiv_kernel : forall w rng h, index_seq w rng ->
  exists st o, run_r (cordiv_step (2 ^ w) rng) (cordiv_init (2 ^ w)) h = Ok (st, o) /\ length o = length h /\
  forall k, (k < length h)%nat ->
    nth k o 0 = if snd (nth k h (0, 0)) =? 1 then fst (nth k h (0, 0))
                else nth (Z.to_nat (cyc rng k)) (recent (2 ^ w) (at_ones (firstn k h))) 0.
Proof. exact cordiv_kernel_spec. Qed.
Print Assumptions C23_cordiv_kernel.
Example C23_ex : run_r (cordiv_step 4 ex_seq2) (cordiv_init 4) [(1, 1); (1, 0); (1, 0); (0, 1); (0, 0); (1, 1); (0, 0)] =
  Ok ({| cd_sr := [1; 1; 0; 1]; cd_idx := 7 |}, [1; 1; 1; 0; 0; 1; 1]).
Proof. reflexivity. Qed.

(** C24. *)
Theorem C24_cordiv_pow2 : forall w rng h, index_seq w rng -> cordiv_width (2 ^ w) = w /\
  exists r, run_r (cordiv_step (2 ^ w) rng) (cordiv_init (2 ^ w)) h = Ok r.
Proof.
  intros w rng h Hr. split; [apply Nat.log2_pow2; lia|]. eexists. apply (cordiv_total w rng h Hr).
Qed.
Print Assumptions C24_cordiv_pow2.
Theorem C24_cordiv_other : forall entry rng h, (1 <= entry)%nat -> index_seq (cordiv_width entry) rng ->
  (forall w, entry <> 2 ^ w)%nat ->
  ((length h <= 2 ^ cordiv_width entry)%nat -> exists r, run_r (cordiv_step entry rng) (cordiv_init entry) h = Ok r) /\
  ((2 ^ cordiv_width entry < length h)%nat -> run_r (cordiv_step entry rng) (cordiv_init entry) h = Err IndexError) /\
  (2 ^ cordiv_width entry < entry)%nat.
Proof. intros entry rng h He Hr Hn. apply cordiv_nonpow2; [exact He|exact Hr|]. intros E. apply (Hn (cordiv_width entry)). symmetry. exact E. Qed.
Print Assumptions C24_cordiv_other.
Example C24_ex : cordiv_width 6 = 2%nat /\
  run_r (cordiv_step 6 ex_seq2) (cordiv_init 6) [(1, 1); (0, 1); (1, 0); (0, 0); (1, 1)] = Err IndexError /\
  exists r, run_r (cordiv_step 6 ex_seq2) (cordiv_init 6) [(1, 1); (0, 1); (1, 0); (0, 0)] = Ok r.
Proof. split; [reflexivity|]. split; [vm_compute; reflexivity|]. eexists. vm_compute. reflexivity. Qed.

(** C25: quotient ones on divisor cycles. *)
Theorem C25_udiv_ratio : forall c w h, fd_mode c = Unipolar -> fd_entry c = (2 ^ w)%nat -> index_seq w (fd_rng c) ->
  Forall bitpair h ->
  exists st o, run_r (fsudiv_step c) (fsudiv_init c) h = Ok (st, o) /\ bits o /\ length o = length h /\
    ones (at_ones (combine o (map snd h))) <= ones (map fst h) /\
    ((forall a b d, h = a ++ b ++ d -> excess b <= p2 (fd_depth_ss c) - 1) ->
     0 <= ones (map fst h) - ones (at_ones (combine o (map snd h))) <= p2 (fd_depth_ss c) - 1).
Proof. exact udiv_ratio. Qed.
Print Assumptions C25_udiv_ratio.
Definition ex_udiv : fsudiv_cfg :=
  {| fd_mode := Unipolar; fd_depth_sa := 3; fd_depth_ss := 2; fd_entry := 4; fd_rng := ex_seq2 |}.
Example C25_ex : let h := [(1, 0); (1, 0); (0, 1); (0, 1); (0, 1); (1, 1); (0, 0)] in
  out_of (run_r (fsudiv_step ex_udiv) (fsudiv_init ex_udiv) h) = Some [0; 0; 1; 1; 0; 1; 1] /\
  at_ones (combine [0; 0; 1; 1; 0; 1; 1] (map snd h)) = [1; 1; 0; 1] /\ ones (map fst h) = 3.
Proof. vm_compute. auto. Qed.

(** C26: sign and magnitude. *)
Theorem C26_bdiv_structure : forall c w h, fd_mode c = Bipolar -> fd_entry c = (2 ^ w)%nat -> index_seq w (fd_rng c) ->
  Forall bitpair h ->
  exists st o q, run_r (fsudiv_step c) (fsudiv_init c) h = Ok (st, o) /\ bits o /\ length o = length h /\
    let sa1 := outs (fsusignabs_step (fd_depth_sa c)) (fsusignabs_init (fd_depth_sa c)) (map fst h) in
    let sa2 := outs (fsusignabs_step (fd_depth_sa c)) (fsusignabs_init (fd_depth_sa c)) (map snd h) in
    let m1 := outs (bi2uni_step 1) bi2uni_init (map snd sa1) in
    let m2 := outs (bi2uni_step 1) bi2uni_init (map snd sa2) in
    let cu := {| fd_mode := Unipolar; fd_depth_sa := fd_depth_sa c; fd_depth_ss := fd_depth_ss c;
                 fd_entry := fd_entry c; fd_rng := fd_rng c |} in
    (exists stu, run_r (fsudiv_step cu) (fsudiv_init cu) (combine m1 m2) = Ok (stu, q)) /\
    forall k, (k < length h)%nat ->
      let b := nth k (outs (uni2bi_step 2) uni2bi_init q) 0 in
      nth k o 0 = if fst (nth k sa1 (0, 0)) =? fst (nth k sa2 (0, 0)) then b else 1 - b.
Proof. exact bdiv_structure. Qed.
Print Assumptions C26_bdiv_structure.

(** A stream divided by itself gives 1 as soon as the running maximum of its magnitude walk has reached
    the number of register entries. *)
Theorem C26_bdiv_self : forall c w xs, fd_mode c = Bipolar -> fd_entry c = (2 ^ w)%nat -> index_seq w (fd_rng c) ->
  bits xs ->
  exists st o, run_r (fsudiv_step c) (fsudiv_init c) (combine xs xs) = Ok (st, o) /\ length o = length xs /\
    forall k, (k < length xs)%nat ->
      p2 w <= max_over_prefixes walk (map snd (outs (fsusignabs_step (fd_depth_sa c)) (fsusignabs_init (fd_depth_sa c)) (firstn k xs))) ->
      nth k o 0 = 1.
Proof. exact bdiv_self. Qed.
Print Assumptions C26_bdiv_self.
Definition ex_bdiv : fsudiv_cfg :=
  {| fd_mode := Bipolar; fd_depth_sa := 3; fd_depth_ss := 2; fd_entry := 4; fd_rng := ex_seq2 |}.
Example C26_ex : let xs := [0; 0; 1; 0; 0; 0; 1; 0; 1; 1] in
  out_of (run_r (fsudiv_step ex_bdiv) (fsudiv_init ex_bdiv) (combine xs xs)) = Some [1; 1; 1; 1; 1; 1; 1; 1; 1; 1] /\
  max_over_prefixes walk (map snd (outs (fsusignabs_step 3) (fsusignabs_init 3) (firstn 6 xs))) = 4 /\
  (* opposite signs *)
  out_of (run_r (fsudiv_step ex_bdiv) (fsudiv_init ex_bdiv) (combine xs (map (fun x => 1 - x) xs))) = Some [0; 0; 0; 0; 0; 0; 0; 0; 0; 0].
Proof. vm_compute. auto. Qed.

(** C30: tracing square root. *)
Theorem C30_sqrt_jk : forall rng xs, bits xs ->
  exists st, run_r (sqrt_trace_step Unipolar true rng) sqrt_trace_init xs = Ok (st, insert_ones xs).
Proof. exact sqrt_trace_jk. Qed.
Print Assumptions C30_sqrt_jk.
Theorem C30_sqrt_cordiv : forall rng xs, index_seq 2 rng -> bits xs ->
  exists st, run_r (sqrt_trace_step Unipolar false rng) sqrt_trace_init xs = Ok (st, insert_quotients rng [] 0 xs).
Proof. exact sqrt_trace_cordiv. Qed.
Print Assumptions C30_sqrt_cordiv.
Theorem C30_sqrt_trace_total : forall m jk rng xs, index_seq 2 rng -> bits xs ->
  exists st o, run_r (sqrt_trace_step m jk rng) sqrt_trace_init xs = Ok (st, o) /\
    bits o /\ Forall2 (fun x y => x <= y) xs o.
Proof. exact sqrt_trace_total. Qed.
Print Assumptions C30_sqrt_trace_total.
(** Below 1/4 the result is strictly smaller than the square root, for every input stream. *)
Theorem C30_sqrt_jk_low : forall rng xs, bits xs -> 0 < ones xs -> 4 * ones xs < zlen xs ->
  exists st o, run_r (sqrt_trace_step Unipolar true rng) sqrt_trace_init xs = Ok (st, o) /\
    ones o * ones o < ones xs * zlen xs.
Proof. exact sqrt_trace_low. Qed.
Print Assumptions C30_sqrt_jk_low.
Example C30_ex : insert_ones [0; 1; 0; 0; 1; 1; 1; 0] = [0; 1; 1; 0; 1; 1; 1; 1] /\
  out_of (run_r (sqrt_trace_step Unipolar true []) sqrt_trace_init [0; 1; 0; 0; 1; 1; 1; 0]) = Some [0; 1; 1; 0; 1; 1; 1; 1] /\
  out_of (run_r (sqrt_trace_step Unipolar false ex_seq2) sqrt_trace_init [0; 0; 1; 0; 0; 0; 0; 0]) = Some [0; 0; 1; 1; 0; 1; 0; 0] /\
  insert_quotients ex_seq2 [] 0 [0; 0; 1; 0; 0; 0; 0; 0] = [0; 0; 1; 1; 0; 1; 0; 0] /\
  let xs := [0; 0; 0; 0; 1; 0; 0; 0; 0] in 0 < ones xs /\ 4 * ones xs < zlen xs.
Proof. vm_compute. auto 10. Qed.

(** C31: emitting square root, exact law. *)
Theorem C31_sqrt_emit : forall m n xs, (1 <= n <= 255)%nat -> bits xs ->
  let o := outs (sqrt_emit_step m n) (sqrt_emit_init n) xs in
  let u := match m with Unipolar => o | Bipolar => outs (bi2uni_step 1) bi2uni_init o end in
  bits o /\ length o = length xs /\
  forall k, (k <= length xs)%nat ->
    0 <= ones (firstn k xs) + reinjected n o u k - ones (firstn k o) <= Z.of_nat n /\
    ((k < length xs)%nat -> nth k o 0 = if 1 <=? ones (firstn (S k) xs) + reinjected n o u (S k) - ones (firstn k o) then 1 else 0).
Proof. exact sqrt_emit_law. Qed.
Print Assumptions C31_sqrt_emit.
Theorem C31_sqrt_emit_256_refuted : exists xs k, bits xs /\ (k < length xs)%nat /\
  let o := outs (sqrt_emit_step Unipolar 256) (sqrt_emit_init 256) xs in
  nth k o 0 <> if 1 <=? ones (firstn (S k) xs) + reinjected 256 o o (S k) - ones (firstn k o) then 1 else 0.
Proof. exact sqrt_emit_256_refuted. Qed.
Print Assumptions C31_sqrt_emit_256_refuted.
Example C31_ex : let xs := [0; 0; 0; 1; 0; 1; 0; 0; 0; 0] in
  let o := outs (sqrt_emit_step Unipolar 2) (sqrt_emit_init 2) xs in
  bits xs /\ o = [0; 0; 0; 1; 1; 1; 1; 0; 0; 0] /\ reinjected 2 o o 10 = 2.
Proof. split; [repeat constructor; unfold bit; lia|]. vm_compute. auto. Qed.
