(** C106: the temporally coded multiply-accumulate units (RtlTmacModel.v). *)
Require Import Verif.BaseLemmas Verif.RtlTmacModel Verif.RtlTmacSpec Verif.RtlTmacProof.
Open Scope Z_scope.

Definition idle_rows (n : nat) : list (list mul_in) := repeat (repeat (0, 0, 0, 0) 16) n.
Lemma idle_rows_ok n : no_loads (idle_rows n).
Proof. apply Forall_forall. intros r Hr. apply repeat_spec in Hr. subst r. repeat constructor. Qed.
Lemma load_rows_ok A B n : ops_ok A B -> rows8 (mac_row A B :: idle_rows n).
Proof.
  intros H. split.
  - constructor; [reflexivity|]. apply Forall_forall. intros r Hr. apply repeat_spec in Hr. subst r. reflexivity.
  - constructor.
    + apply Forall_forall. intros x Hx. apply in_map_iff in Hx. destruct Hx as (i & <- & Hi). apply in_seq in Hi. destruct (H i ltac:(lia)). assumption.
    + apply Forall_forall. intros r Hr. apply repeat_spec in Hr. subst r. repeat constructor; cbn; lia.
Qed.

(** Bit by bit: the scaled units show, one clock late, the product bit of the lane that [lane_of] picks. *)
Theorem C106_scaled_uni : forall h t, rows8 h -> (S t < length h)%nat ->
  nth (S t) (outs tmac_uni_scaled tmac_init h) 0 = b2z (prod_uni h t (Z.to_nat (lane_of (free_run 8 t)))).
Proof. exact tmac_uni_nth. Qed.
Print Assumptions C106_scaled_uni.
Theorem C106_scaled_bi : forall h t, rows8 h -> (S t < length h)%nat ->
  nth (S t) (outs tmac_bi_scaled tmac_init h) 0 = b2z (prod_bi h t (Z.to_nat (lane_of (free_run 8 t)))).
Proof. exact tmac_bi_nth. Qed.
Print Assumptions C106_scaled_bi.
(** After a load of A and B (whatever came before): A_i clocks of comparisons of B_i, then silence. *)
Theorem C106_scaled_uni_load : forall pre idle A B j, let h := pre ++ mac_row A B :: idle in let t := (S (length pre) + j)%nat in
  rows8 h -> no_loads idle -> (S t < length h)%nat ->
  nth (S t) (outs tmac_uni_scaled tmac_init h) 0 =
  let i := Z.to_nat (lane_of (free_run 8 t)) in b2z ((0 <? Z.of_nat j) && (Z.of_nat j <=? A i) && (free_run 8 t <? B i)).
Proof. exact run_bit_uni. Qed.
Print Assumptions C106_scaled_uni_load.
(** After a load, bipolar: A_i clocks of comparisons of B_i, otherwise the inverted comparison. *)
Theorem C106_scaled_bi_load : forall pre idle A B j, let h := pre ++ mac_row A B :: idle in let t := (S (length pre) + j)%nat in
  rows8 h -> no_loads idle -> (S t < length h)%nat ->
  nth (S t) (outs tmac_bi_scaled tmac_init h) 0 =
  let i := Z.to_nat (lane_of (free_run 8 t)) in b2z (Bool.eqb ((0 <? Z.of_nat j) && (Z.of_nat j <=? A i)) (free_run 8 t <? B i)).
Proof. exact run_bit_bi. Qed.
Print Assumptions C106_scaled_bi_load.
Example C106_scaled_ex : ones (outs tmac_uni_scaled tmac_init (mac_row (fun _ => 255) (fun i => 16 * Z.of_nat (i mod 8) + 16) :: idle_rows 300)) = 127.
Proof. vm_compute. reflexivity. Qed.
(** The number of ones is not the scaled sum of the products: operands with a mean product of about 56 (in units of 1/256) give no one at all. *)
Theorem C106_scaled_sum_refuted : exists A B, ops_ok A B /\ 56 * 16 * 255 = total (fun i => A i * B i) /\
  forall n t, nth t (outs tmac_uni_scaled tmac_init (mac_row A B :: idle_rows n)) 0 = 0.
Proof.
  assert (H : ops_ok (fun _ => 255) hidden_b).
  { intros i Hi. unfold hidden_b. pose proof (Nat.mod_upper_bound i 8 ltac:(lia)). lia. }
  exists (fun _ => 255), hidden_b. split; [exact H|]. split; [reflexivity|]. intros n t.
  exact (scaled_hidden (idle_rows n) _ t (load_rows_ok _ _ n H) (idle_rows_ok n)).
Qed.
Print Assumptions C106_scaled_sum_refuted.
(** The product of one lane: within 1080/256 of n B / 256, on whatever clock it starts; the bound is reached. *)
Theorem C106_discrepancy : forall k n B, 0 <= B <= 256 -> Z.abs (256 * sobol_below k n B - Z.of_nat n * B) <= 1080.
Proof. exact below_error. Qed.
Print Assumptions C106_discrepancy.
Example C106_discrepancy_ex : 256 * sobol_below 445 136 137 - 136 * 137 = 1080.
Proof. vm_compute. reflexivity. Qed.
(** tMAC_uni_nonscaled, bit by bit: all product bits up to three clocks before, modulo 256, compared with the generator. *)
Theorem C106_nonscaled : forall h t, rows8 h -> (t < length h)%nat ->
  nth t (outs tmac_uni_nonscaled tmac_ns_init h) 0 = b2z (free_run 8 t <? emitted h (t - 2) mod 256).
Proof. exact tmac_ns_nth. Qed.
Print Assumptions C106_nonscaled.
(** Every period after a load: the ones so far plus those of the sixteen products, modulo 256. *)
Theorem C106_nonscaled_load : forall pre idle A B p, let h := pre ++ mac_row A B :: idle in rows8 h -> no_loads idle -> ops_ok A B ->
  (length pre + 259 <= p * 256)%nat -> (p * 256 + 256 <= length h)%nat ->
  ones_from (p * 256) 256 (outs tmac_uni_nonscaled tmac_ns_init h) =
  (emitted h (S (length pre)) + total (fun i => sobol_below (length pre + 2) (Z.to_nat (A i)) (B i))) mod 256.
Proof. exact ns_load. Qed.
Print Assumptions C106_nonscaled_load.
(** The first load. *)
Theorem C106_nonscaled_first : forall idle A B p, let h := mac_row A B :: idle in rows8 h -> no_loads idle -> ops_ok A B ->
  (2 <= p)%nat -> (p * 256 + 256 <= length h)%nat ->
  ones_from (p * 256) 256 (outs tmac_uni_nonscaled tmac_ns_init h) = total (fun i => sobol_below 2 (Z.to_nat (A i)) (B i)) mod 256.
Proof. exact ns_first. Qed.
Print Assumptions C106_nonscaled_first.
(** How far that is from the sum of the products. *)
Theorem C106_nonscaled_error : forall A B k, ops_ok A B ->
  Z.abs (256 * total (fun i => sobol_below k (Z.to_nat (A i)) (B i)) - total (fun i => A i * B i)) <= 16 * 1080.
Proof. exact ns_error. Qed.
Print Assumptions C106_nonscaled_error.
Example C106_nonscaled_ex :
  let h := mac_row (fun _ => 16) (fun _ => 200) :: idle_rows 800 in
  total (fun _ => sobol_below 2 16 200) = 208 /\ 16 * 16 * 200 / 256 = 200 /\ ones_from 512 256 (outs tmac_uni_nonscaled tmac_ns_init h) = 208.
Proof. vm_compute. repeat split; reflexivity. Qed.
(** It does not saturate: sixteen products of almost one sum up to 224/256. *)
Theorem C106_saturates_refuted : exists A B, ops_ok A B /\ (forall i, A i = 255 /\ B i = 255) /\ forall n p, (2 <= p)%nat -> (p * 256 + 255 <= n)%nat ->
  ones_from (p * 256) 256 (outs tmac_uni_nonscaled tmac_ns_init (mac_row A B :: idle_rows n)) = 224.
Proof.
  assert (H : ops_ok (fun _ => 255) (fun _ => 255)) by (intros i Hi; lia).
  exists (fun _ => 255), (fun _ => 255). split; [exact H|]. split; [intros i; split; reflexivity|]. intros n p Hp Hn.
  pose proof (ns_first (idle_rows n) (fun _ => 255) (fun _ => 255) p (load_rows_ok _ _ n H) (idle_rows_ok n) H Hp) as E. cbv zeta in E.
  rewrite E; [vm_compute; reflexivity|]. cbn [length]. unfold idle_rows. rewrite repeat_length. lia.
Qed.
Print Assumptions C106_saturates_refuted.
(** A second load does not start a new sum: after a load of zeros the first sum is still shown. *)
Theorem C106_not_cleared : forall idle0 idle A B p, let h := (mac_row A B :: idle0) ++ mac_row (fun _ => 0) (fun _ => 0) :: idle in
  rows8 h -> no_loads idle0 -> no_loads idle -> ops_ok A B -> (256 <= length idle0)%nat ->
  (length idle0 + 260 <= p * 256)%nat -> (p * 256 + 256 <= length h)%nat ->
  ones_from (p * 256) 256 (outs tmac_uni_nonscaled tmac_ns_init h) = total (fun i => sobol_below 2 (Z.to_nat (A i)) (B i)) mod 256.
Proof. exact ns_not_cleared. Qed.
Print Assumptions C106_not_cleared.
Example C106_not_cleared_ex :
  ones_from 768 256 (outs tmac_uni_nonscaled tmac_ns_init
    ((mac_row (fun _ => 16) (fun _ => 200) :: idle_rows 256) ++ mac_row (fun _ => 0) (fun _ => 0) :: idle_rows 800)) = 208.
Proof. vm_compute. reflexivity. Qed.
