(** C93: the RTL square roots that feed the output back into a non-scaled addition. *)
Require Import Verif.BaseLemmas Verif.RtlRootModel Verif.RtlRootSpec Verif.RtlRootProof.
Open Scope Z_scope.

(** Every output bit of BISQRT_O_U and BISQRT_O_B, DEP = S d, for any numbers and any unknown bits: it is one exactly if what has been added
    less what has been emitted, modulo 2^DEP, is one of 1, ..., 2^(DEP-1)-1. *)
Theorem C93_u d h : Forall root_ok h ->
  let os := outs (bisqrt_o_u d) (bisqrt_o_u_init d) h in
  let es := root_fed (S d) (root_start (S d)) h os os in
  length os = length h /\ forall t, (t < length h)%nat ->
  nth t os 0 = b2z ((1 <=? root_balance h es os t mod p2 (S d)) && (root_balance h es os t mod p2 (S d) <? p2 d)).
Proof. exact (@oroot_u_outs d h). Qed.
Print Assumptions C93_u.
Theorem C93_b d h : Forall root_ok h ->
  let os := outs (bisqrt_o_b d) (bisqrt_o_b_init d) h in
  let es := root_fed (S d) (root_start (S d)) h (outs (bi2uni_rtl 2) (bi2uni_rtl_init 2) os) os in
  length os = length h /\ forall t, (t < length h)%nat ->
  nth t os 0 = b2z ((1 <=? root_balance h es os t mod p2 (S d)) && (root_balance h es os t mod p2 (S d) <? p2 d)).
Proof. exact (@oroot_b_outs d h). Qed.
Print Assumptions C93_b.

(** With DEP at least 4 and numbers below DEP the counter never wraps, whatever the input and the numbers: the ones taken in and fed back
    exceed the ones emitted by at least 0 and at most DEP+1 (DEP+2 for the bipolar module) at all times, and a one is emitted exactly when
    they exceed it at all. *)
Theorem C93_u_bound d h : (3 <= d)%nat -> Forall root_ok h -> Forall (fun p => root_rand p <= Z.of_nat d) h ->
  let os := outs (bisqrt_o_u d) (bisqrt_o_u_init d) h in
  let es := root_fed (S d) (root_start (S d)) h os os in
  forall t, (t <= length h)%nat -> 0 <= root_balance h es os t <= Z.of_nat d + 2 /\
  ((t < length h)%nat -> nth t os 0 = b2z (0 <? root_balance h es os t)).
Proof. exact (@oroot_u_bound d h). Qed.
Print Assumptions C93_u_bound.
Theorem C93_b_bound d h : (3 <= d)%nat -> Forall root_ok h -> Forall (fun p => root_rand p <= Z.of_nat d) h ->
  let os := outs (bisqrt_o_b d) (bisqrt_o_b_init d) h in
  let es := root_fed (S d) (root_start (S d)) h (outs (bi2uni_rtl 2) (bi2uni_rtl_init 2) os) os in
  forall t, (t <= length h)%nat -> 0 <= root_balance h es os t <= Z.of_nat d + 3 /\
  ((t < length h)%nat -> nth t os 0 = b2z (0 <? root_balance h es os t)).
Proof. exact (@oroot_b_bound d h). Qed.
Print Assumptions C93_b_bound.

(** So the output is a root of the input: over any stretch of clocks past the first DEP, the ones of the input and the ones of the product of
    the output and of the output selected among the last DEP differ by at most DEP+1. *)
Theorem C93_u_square d h s n : (3 <= d)%nat -> Forall root_ok h -> Forall (fun p => root_rand p <= Z.of_nat d) h ->
  (S d <= s)%nat -> (s + n <= length h)%nat ->
  let os := outs (bisqrt_o_u d) (bisqrt_o_u_init d) h in
  Z.abs (zsum (map (fun k => root_in (nth k h (0, 0, 0))) (seq s n)) -
    zsum (map (fun k => nth k os 0 * nth (k - S d + Z.to_nat (root_rand (nth k h (0, 0, 0)%Z))) os 0) (seq s n))) <= Z.of_nat d + 2.
Proof. exact (@oroot_u_square d h s n). Qed.
Print Assumptions C93_u_square.

(** With the default DEP = 3 it does wrap: of an input of ones, whose root is one, as few as three ones out of eight remain. *)
Theorem C93_u_bound_refuted n : exists h, length h = (4 + 8 * n)%nat /\
  Forall (fun p => 0 <= root_rand p <= 2 /\ root_unknown p = 0 /\ root_in p = 1) h /\
  ones (outs (bisqrt_o_u 2) (bisqrt_o_u_init 2) h) = 3 + 3 * Z.of_nat n.
Proof.
  exists ([(0, 0, 1); (0, 0, 1); (1, 0, 1); (0, 0, 1)] ++ concat (repeat (repeat (0, 0, 1) 8) n)). repeat split.
  - rewrite app_length. assert (G : length (concat (repeat (repeat (0, 0, 1) 8) n)) = (8 * n)%nat).
    { induction n as [|n IH]; [reflexivity|]. change (repeat (repeat (0, 0, 1) 8) (S n)) with (repeat (0, 0, 1) 8 :: repeat (repeat (0, 0, 1) 8) n).
      rewrite concat_cons, app_length, IH, repeat_length. lia. }
    rewrite G. reflexivity.
  - apply Forall_app. split; [repeat constructor; cbn; lia|]. apply Forall_concat. apply Forall_forall. intros l Hl.
    apply repeat_spec in Hl. subst l. apply Forall_forall. intros p Hp. apply repeat_spec in Hp. subst p. cbn. lia.
  - rewrite oroot_u_wraps. rewrite ones_app. change (ones [0; 1; 1; 1]) with 3. f_equal.
    induction n as [|n IH]; [reflexivity|]. cbn [repeat concat]. rewrite ones_app, IH.
    change (ones [0; 0; 0; 0; 0; 1; 1; 1]) with 3. lia.
Qed.
Print Assumptions C93_u_bound_refuted.
(** A number that selects an entry the module never assigns: if it happens to hold a one, an input of ones comes out with fewer than half of
    its ones, for every DEP. *)
Theorem C93_unassigned d n t : (t < n)%nat ->
  nth t (outs (bisqrt_o_u d) (bisqrt_o_u_init d) (repeat (Z.of_nat (S d), 1, 1) n)) 0 =
  b2z ((1 <=? Z.of_nat t mod p2 (S d)) && (Z.of_nat t mod p2 (S d) <? p2 d)).
Proof. exact (@oroot_u_unknown d n t). Qed.
Print Assumptions C93_unassigned.

Definition root_ex : list (Z * Z * Z) :=
  [(0, 0, 1); (3, 0, 0); (1, 0, 0); (2, 0, 1); (0, 0, 0); (3, 0, 0); (1, 0, 0); (2, 0, 1); (0, 0, 0); (3, 0, 1); (1, 0, 1); (2, 0, 0)].
Example C93_ex : let os := outs (bisqrt_o_u 3) (bisqrt_o_u_init 3) root_ex in
  os = [0; 1; 1; 1; 1; 1; 0; 0; 1; 0; 1; 1] /\
  root_fed 4 (root_start 4) root_ex os os = [0; 1; 1; 0; 1; 0; 0; 0; 0; 0; 1; 1] /\
  map (root_balance root_ex (root_fed 4 (root_start 4) root_ex os os) os) (seq 0 13) = [0; 1; 1; 1; 1; 1; 0; 0; 1; 0; 1; 2; 2] /\
  outs (bisqrt_o_b 3) (bisqrt_o_b_init 3) root_ex = [0; 1; 0; 0; 1; 0; 0; 0; 1; 0; 1; 1].
Proof. vm_compute. repeat split. Qed.
Example C93_ex_ok : Forall root_ok root_ex /\ Forall (fun p => root_rand p <= 3) root_ex.
Proof. split; repeat (apply Forall_cons; [vm_compute; intuition congruence|]); apply Forall_nil. Qed.
