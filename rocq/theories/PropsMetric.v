(** Properties C05, C06, C47-C49: the metrics and the generator/metric composition. *)
Require Import Verif.BaseLemmas Verif.GenModel Verif.GenProof Verif.MetricModel Verif.MetricProof.
Open Scope Z_scope.

(** C05: BinGen, BSGen with a permutation sequence and ProgError, over whole periods. *)
Theorem C05_end_to_end : forall m w rng s start k, perm_seq w rng -> src_ok m s -> (1 <= k)%nat ->
  let xs := bsgen_stream (bingen m w s) rng start (k * 2 ^ w) in
  exists pp pe, pe_forward m 1 s (pe_monitors pe_init xs) = Some (pp, pe) /\
    (pp == grid_value m w (bingen m w s))%Q /\ (pe == grid_value m w (bingen m w s) - s)%Q /\
    (Qabs pe <= match m with Unipolar => 1 / inject_Z (p2 (S w)) | Bipolar => 1 / inject_Z (p2 w) end)%Q.
Proof. exact end_to_end. Qed.
Print Assumptions C05_end_to_end.
Example C05_ex : perm_seq 2 [0; 2; 3; 1] /\ src_ok Bipolar (2 # 5) /\
  bsgen_stream (bingen Bipolar 2 (2 # 5)) [0; 2; 3; 1] 1 8 = [1; 0; 1; 1; 1; 0; 1; 1] /\
  (grid_value Bipolar 2 (bingen Bipolar 2 (2 # 5)) == 1 # 2)%Q.
Proof.
  split; [|split; [split; discriminate|split; [reflexivity|reflexivity]]].
  change [0; 2; 3; 1] with ([0; 2; 3] ++ [1]).
  unfold perm_seq. change (map Z.of_nat (seq 0 (2 ^ 2))) with [0; 1; 2; 3].
  apply perm_skip. apply Permutation_sym. change ([2; 3] ++ [1]) with ([2; 3] ++ 1 :: []).
  apply (Permutation_middle [2; 3] [] 1).
Qed.

(** C06: same sequence, two binary values. *)
Theorem C06_same_rng : forall rng B1 B2 start n, B1 <= B2 ->
  Forall2 (fun x y => x <= y) (bsgen_stream B1 rng start n) (bsgen_stream B2 rng start n) /\
  (forall B k, bsgen_stream B rng (start + k * zlen rng) n = bsgen_stream B rng start n) /\
  (let h := combine (bsgen_stream B1 rng start n) (bsgen_stream B2 rng start n) in
   0 < pairs 1 1 h -> 0 < pairs 0 0 h ->
   (corr_forward (corr_monitors corr_init (map (fun p => (fst p, Some (snd p))) h)) == 1)%Q /\
   (corr_forward (corr_monitors corr_init (map (fun p => (fst p, Some (snd p))) (map (fun p => (snd p, fst p)) h))) == 1)%Q).
Proof. exact same_rng. Qed.
Print Assumptions C06_same_rng.
Example C06_ex : let h := combine (bsgen_stream 2 [0; 2; 3; 1] 0 4) (bsgen_stream 3 [0; 2; 3; 1] 0 4) in
  h = [(1, 1); (0, 1); (0, 0); (1, 1)] /\ 0 < pairs 1 1 h /\ 0 < pairs 0 0 h.
Proof. split; [reflexivity|]. split; reflexivity. Qed.

(** C47. *)
Theorem C47_progerror : forall m scale source xs, bits xs -> xs <> [] ->
  exists pp pe, pe_forward m scale source (pe_monitors pe_init xs) = Some (pp, pe) /\
    (pp == value m xs)%Q /\ (pe == value m xs - qclamp (-1) 1 (source / scale))%Q /\
    src_ok m pp /\
    (forall x, bit x -> exists pp' pe', pe_forward m scale source (pe_monitors pe_init (xs ++ [x])) = Some (pp', pe') /\
      (Qabs (pp' - pp) <= (match m with Unipolar => 1 | Bipolar => 2 end) / inject_Z (zlen xs + 1))%Q /\
      (pe' - pe == pp' - pp)%Q).
Proof. exact progerror_all. Qed.
Print Assumptions C47_progerror.
Example C47_ex : exists pp pe, pe_forward Bipolar 2 3 (pe_monitors pe_init [1; 0; 1; 1]) = Some (pp, pe) /\ (pp == 1 # 2)%Q /\ (pe == - (1 # 2))%Q.
Proof. eexists; eexists. split; [reflexivity|]. split; reflexivity. Qed.

(** C48: [last_index] is the last 1-based position of a prefix that is off target, 0 if none. *)
Theorem C48_stability : forall m scale source thr xs, bits xs -> xs <> [] ->
  let s := stab_monitors m scale source thr stab_init xs in
  let cts := last_index (fun ys => qgt (Qabs (value m ys - qclamp (-1) 1 (source / scale))) thr) 1
                        (map (fun k => firstn (S k) xs) (seq 0 (length xs))) in
  sb_cts s = cts /\ 0 <= cts <= zlen xs /\
  (stab_forward s == 1 - inject_Z (Z.max 1 cts) / inject_Z (zlen xs))%Q /\
  (0 <= stab_forward s /\ stab_forward s <= 1 - 1 / inject_Z (zlen xs))%Q.
Proof. exact stability_all. Qed.
Print Assumptions C48_stability.
Example C48_ex : let s := stab_monitors Unipolar 1 (1 # 2) (1 # 10) stab_init [1; 0; 1; 0; 1; 0; 0; 1] in
  sb_cts s = 3 /\ (stab_forward s == 5 # 8)%Q.
Proof. split; reflexivity. Qed.

(** C49. *)
Theorem C49_correlation : forall h, Forall bitpair h ->
  let r := corr_forward (corr_monitors corr_init (map (fun p => (fst p, Some (snd p))) h)) in
  (-(1) <= r /\ r <= 1)%Q /\
  ((r == 1)%Q <-> (pairs 1 0 h = 0 \/ pairs 0 1 h = 0) /\ 0 < pairs 1 1 h /\ 0 < pairs 0 0 h) /\
  ((r == -(1))%Q <-> (pairs 1 1 h = 0 \/ pairs 0 0 h = 0) /\ 0 < pairs 1 0 h /\ 0 < pairs 0 1 h) /\
  (h <> [] -> (r == scc (value Unipolar (map fst h)) (value Unipolar (map snd h))
                        (inject_Z (pairs 1 1 h) / inject_Z (zlen h)))%Q).
Proof. exact corr_all. Qed.
Print Assumptions C49_correlation.
Theorem C49_symmetric : forall h, Forall bitpair h ->
  (corr_forward (corr_monitors corr_init (map (fun p => (fst p, Some (snd p))) h)) ==
   corr_forward (corr_monitors corr_init (map (fun p => (fst p, Some (snd p))) (map (fun p => (snd p, fst p)) h))))%Q.
Proof. exact corr_symmetric. Qed.
Print Assumptions C49_symmetric.
Theorem C49_delayed : forall xs,
  (corr_forward (corr_monitors corr_init (map (fun x => (x, None)) xs)) ==
   corr_forward (corr_monitors corr_init (map (fun p => (fst p, Some (snd p))) (combine xs (0%Z :: xs)))))%Q.
Proof. exact corr_delayed. Qed.
Print Assumptions C49_delayed.
Example C49_ex : let h := [(1, 1); (1, 0); (0, 1); (0, 0); (1, 1); (0, 0)] in Forall bitpair h /\
  (corr_forward (corr_monitors corr_init (map (fun p => (fst p, Some (snd p))) h)) == 1 # 3)%Q /\
  (scc (1 # 2) (1 # 2) (1 # 3) == 1 # 3)%Q.
Proof. split; [repeat (constructor; [split; unfold bit; cbn [fst snd]; auto|]); constructor|]. split; reflexivity. Qed.
