(** C107 and C108: the older adders of hw/kernel/old; the binary units, grayCode, LSZ2 and exp (RtlAddsModel.v). *)
Require Import Verif.BaseLemmas Verif.RtlAddsModel Verif.RtlAddsSpec Verif.RtlTmacProof Verif.RtlAddsProof.
Open Scope Z_scope.

Lemma rows8b_check h : forallb (fun x => (length x =? 8)%nat && forallb (fun v => (v =? 0) || (v =? 1)) x) h = true -> rows8b h.
Proof.
  intros H. apply Forall_forall. intros x Hx. pose proof (proj1 (forallb_forall _ _) H x Hx) as E. cbv beta in E. apply andb_true_iff in E. destruct E as [E1 E2].
  split; [apply Nat.eqb_eq, E1|]. apply Forall_forall. intros v Hv. pose proof (proj1 (forallb_forall _ _) E2 v Hv) as E. cbv beta in E. unfold bit. lia.
Qed.
(** One row with a one in lane i. *)
Definition unit_row (i : nat) : list Z := map (fun j => b2z (j =? i)%nat) (seq 0 8).

(** ** C107 *)
(** apcADD_rng, bit by bit: the weight of the previous row compared with the low three bits of the eight-bit generator; the first bit is 0. *)
Theorem C107_apc : forall h t, rows8b h -> (S t < length h)%nat ->
  nth (S t) (outs apcadd_rng apcadd_rng_init h) 0 = b2z (low3 (S t) <? apc_weight (nth t h [])).
Proof. exact apc_nth. Qed.
Print Assumptions C107_apc.
Theorem C107_apc_first : forall h, nth 0 (outs apcadd_rng apcadd_rng_init h) 0 = 0.
Proof. exact apc_first. Qed.
Print Assumptions C107_apc_first.
(** The weight is not the number of ones: it is up to one smaller and up to three larger. *)
Theorem C107_apc_weight : forall x, row8 x -> ones x - 1 <= apc_weight x <= ones x + 3 /\ (ones x = 0 -> apc_weight x = 0).
Proof. exact apc_weight_count. Qed.
Print Assumptions C107_apc_weight.
Example C107_apc_weight_ex : apc_weight [1; 1; 1; 1; 1; 1; 1; 1] = 7 /\ apc_weight [1; 0; 1; 0; 1; 0; 0; 0] = 6 /\ apc_weight [1; 1; 0; 0; 0; 0; 0; 0] = 2 /\
  apc_weight [0; 0; 0; 0; 0; 0; 1; 1] = 1.
Proof. repeat split. Qed.
(** The lanes do not count equally: exchanging two of them changes the result. *)
Theorem C107_apc_symmetric_refuted : exists x y, row8 x /\ row8 y /\ Permutation x y /\ apc_weight x = 2 /\ apc_weight y = 1.
Proof.
  exists (unit_row 0), (unit_row 6). assert (R : rows8b [unit_row 0; unit_row 6]) by (apply rows8b_check; reflexivity).
  split; [exact (Forall_inv R)|]. split; [exact (Forall_inv (Forall_inv_tail R))|]. split; [|split; reflexivity].
  change (unit_row 0) with ([] ++ 1 :: [0; 0; 0; 0; 0; 0; 0]). change (unit_row 6) with ([0; 0; 0; 0; 0; 0] ++ 1 :: [0]).
  apply Permutation_cons_app. reflexivity.
Qed.
Print Assumptions C107_apc_symmetric_refuted.
(** Under a constant row: 32 ones per unit of weight in every aligned period of 256 clocks ... *)
Theorem C107_apc_period : forall h x p, rows8b h -> (1 <= p)%nat -> (p * 256 + 256 <= length h)%nat ->
  (forall t, (p * 256 - 1 <= t < p * 256 + 255)%nat -> nth t h [] = x) ->
  ones_from (p * 256) 256 (outs apcadd_rng apcadd_rng_init h) = 32 * apc_weight x.
Proof. exact apc_period. Qed.
Print Assumptions C107_apc_period.
(** ... which come in blocks: the random number stays the same for 32 clocks, and so does the output. *)
Theorem C107_apc_block : forall h x k j, rows8b h -> (j < 32)%nat -> (32 * k + j < length h)%nat -> (1 <= k)%nat ->
  (forall t, (32 * k - 1 <= t < 32 * k + 31)%nat -> nth t h [] = x) ->
  nth (32 * k + j) (outs apcadd_rng apcadd_rng_init h) 0 = b2z (low3 (32 * k) <? apc_weight x).
Proof. exact apc_block. Qed.
Print Assumptions C107_apc_block.
Example C107_apc_ex : let h := repeat [1; 0; 1; 0; 0; 0; 1; 1] 512 in
  ones_from 256 256 (outs apcadd_rng apcadd_rng_init h) = 160 /\ map low3 [0; 31; 32; 64; 96; 128]%nat = [0; 0; 4; 6; 2; 3] /\
  ones_from 64 32 (outs apcadd_rng apcadd_rng_init h) = 0.
Proof. vm_compute. repeat split; reflexivity. Qed.
(** muxADD_rng, bit by bit: the lane picked by the low three bits of the eight-bit generator, one clock late. *)
Theorem C107_mux : forall h t, (S t < length h)%nat -> nth (S t) (outs muxadd_rng muxadd_rng_init h) 0 = nth (Z.to_nat (low3 t)) (nth t h []) 0.
Proof. exact muxr_nth. Qed.
Print Assumptions C107_mux.
Theorem C107_mux_first : forall h, nth 0 (outs muxadd_rng muxadd_rng_init h) 0 = 0.
Proof. exact muxr_first. Qed.
Print Assumptions C107_mux_first.
(** On 32 clocks in a row only one lane is seen. *)
Theorem C107_mux_block : forall h k, rows8b h -> (32 * k + 32 < length h)%nat ->
  ones_from (32 * k + 1) 32 (outs muxadd_rng muxadd_rng_init h) = lane_ones h (Z.to_nat (low3 (32 * k))) (32 * k) 32.
Proof. exact muxr_block. Qed.
Print Assumptions C107_mux_block.
(** Constant rows are added exactly over an aligned period. *)
Theorem C107_mux_period : forall h x p, row8 x -> (p * 256 + 256 < length h)%nat ->
  (forall t, (p * 256 <= t < p * 256 + 256)%nat -> nth t h [] = x) ->
  ones_from (S (p * 256)) 256 (outs muxadd_rng muxadd_rng_init h) = 32 * ones x.
Proof. exact muxr_period. Qed.
Print Assumptions C107_mux_period.
(** Other rows are not: the same number of ones in every lane gives all ones or none. *)
Definition mux_rows (d : nat) : list (list Z) := map (fun t => unit_row ((Z.to_nat (nth t sobol512 0 mod 8) + d) mod 8)) (seq 0 257).
Theorem C107_mux_sum_refuted : exists h1 h2, rows8b h1 /\ rows8b h2 /\ length h1 = 257%nat /\ length h2 = 257%nat /\
  (forall i, (i < 8)%nat -> lane_ones h1 i 0 256 = 32 /\ lane_ones h2 i 0 256 = 32) /\
  ones_from 1 256 (outs muxadd_rng muxadd_rng_init h1) = 256 /\ ones_from 1 256 (outs muxadd_rng muxadd_rng_init h2) = 0.
Proof.
  exists (mux_rows 0), (mux_rows 1). split; [apply rows8b_check; vm_compute; reflexivity|]. split; [apply rows8b_check; vm_compute; reflexivity|].
  split; [reflexivity|]. split; [reflexivity|]. split; [|split; vm_compute; reflexivity].
  intros i Hi. do 8 (destruct i as [|i]; [split; vm_compute; reflexivity|]). lia.
Qed.
Print Assumptions C107_mux_sum_refuted.
(** dADD, bit by bit: a three-bit generator that moves once every eight clocks, first before clock 2. *)
Theorem C107_dadd : forall h t, (S t < length h)%nat -> nth (S t) (outs dadd dadd_init h) 0 = nth (Z.to_nat (free_run 3 ((t + 6) / 8))) (nth t h []) 0.
Proof. exact dadd_nth. Qed.
Print Assumptions C107_dadd.
Theorem C107_dadd_first : forall h, nth 0 (outs dadd dadd_init h) 0 = 0.
Proof. exact dadd_first. Qed.
Print Assumptions C107_dadd_first.
(** Inputs that repeat every eight clocks are added exactly over the 64 clocks of a full turn of the generator ... *)
Theorem C107_dadd_period : forall h p, repeats8 h (64 * p + 58) 64 -> (64 * p + 58 + 64 < length h)%nat ->
  ones_from (64 * p + 59) 64 (outs dadd dadd_init h) = zsum (map (fun i => lane_ones h i (64 * p + 58) 8) (seq 0 8)).
Proof. exact dadd_period. Qed.
Print Assumptions C107_dadd_period.
(** ... other inputs are not. *)
Definition dadd_rows (d : nat) : list (list Z) := map (fun t => unit_row ((Z.to_nat (free_run 3 ((t + 6) / 8)) + d) mod 8)) (seq 0 123).
Theorem C107_dadd_sum_refuted : exists h1 h2, rows8b h1 /\ rows8b h2 /\ length h1 = 123%nat /\ length h2 = 123%nat /\
  (forall i, (i < 8)%nat -> lane_ones h1 i 58 64 = 8 /\ lane_ones h2 i 58 64 = 8) /\
  ones_from 59 64 (outs dadd dadd_init h1) = 64 /\ ones_from 59 64 (outs dadd dadd_init h2) = 0.
Proof.
  exists (dadd_rows 0), (dadd_rows 1). split; [apply rows8b_check; vm_compute; reflexivity|]. split; [apply rows8b_check; vm_compute; reflexivity|].
  split; [reflexivity|]. split; [reflexivity|]. split; [|split; vm_compute; reflexivity].
  intros i Hi. do 8 (destruct i as [|i]; [split; vm_compute; reflexivity|]). lia.
Qed.
Print Assumptions C107_dadd_sum_refuted.
Example C107_dadd_ex : let h := map (fun t => [b2z (t mod 8 <? 3)%nat; 1; 0; 0; b2z (t mod 8 <? 5)%nat; 0; 0; 0]) (seq 0 123) in
  zsum (map (fun i => lane_ones h i 58 8) (seq 0 8)) = 16 /\ ones_from 59 64 (outs dadd dadd_init h) = 16.
Proof. vm_compute. repeat split; reflexivity. Qed.
(** orADD: at least as many ones as the fullest lane, at most as many as all lanes together. *)
Theorem C107_or : forall h t, (S t < length h)%nat -> nth (S t) (outs oradd8 0 h) 0 = b2z (existsb (Z.eqb 1) (nth t h [])).
Proof. exact oradd8_nth. Qed.
Print Assumptions C107_or.
Theorem C107_or_bounds : forall h k n, rows8b h -> (k + n < length h)%nat ->
  (forall i, lane_ones h i k n <= ones_from (S k) n (outs oradd8 0 h)) /\
  ones_from (S k) n (outs oradd8 0 h) <= zsum (map (fun i => lane_ones h i k n) (seq 0 8)).
Proof. exact or_bounds. Qed.
Print Assumptions C107_or_bounds.
Example C107_or_ex : let h := [unit_row 1; unit_row 1; unit_row 2; [1; 1; 1; 1; 1; 1; 1; 1]; unit_row 0] in
  ones_from 1 4 (outs oradd8 0 h) = 4 /\ lane_ones h 1 0 4 = 3 /\ zsum (map (fun i => lane_ones h i 0 4) (seq 0 8)) = 11.
Proof. vm_compute. repeat split; reflexivity. Qed.

(** ** C108 *)
(** bADD and bMUL: the exact sum and product, two clocks late. *)
Theorem C108_badd : forall h t, (S (S t) < length h)%nat -> byte (fst (nth t h (0, 0))) -> byte (snd (nth t h (0, 0))) ->
  nth (S (S t)) (outs badd bin_init h) 0 = fst (nth t h (0, 0)) + snd (nth t h (0, 0)).
Proof. exact badd_nth. Qed.
Print Assumptions C108_badd.
Theorem C108_bmul : forall h t, (S (S t) < length h)%nat -> byte (fst (nth t h (0, 0))) -> byte (snd (nth t h (0, 0))) ->
  nth (S (S t)) (outs bmul bin_init h) 0 = fst (nth t h (0, 0)) * snd (nth t h (0, 0)).
Proof. exact bmul_nth. Qed.
Print Assumptions C108_bmul.
Example C108_bin_ex : nth 2 (outs badd bin_init [(255, 255); (0, 0); (0, 0)]) 0 = 510 /\ nth 2 (outs bmul bin_init [(255, 255); (0, 0); (0, 0)]) 0 = 65025.
Proof. split; reflexivity. Qed.
(** mac: a product with acc_en 0 starts a new sum, whatever came before; the register holds the sum modulo 2^20, which is the sum itself for up to sixteen products ... *)
Theorem C108_mac : forall pre a b c ps, Forall (fun p => byte (fst p) /\ byte (snd p)) ((a, b) :: ps) -> 0 <= c ->
  let s := c + a * b + zsum (map (fun p => fst p * snd p) ps) in
  let oC := final mac 0 (pre ++ (a, b, c, 0) :: map (fun p => (fst p, snd p, 0, 1)) ps) in
  oC = s mod 2 ^ 20 /\ (c = 0 -> (length ps <= 15)%nat -> oC = s).
Proof. exact mac_run. Qed.
Print Assumptions C108_mac.
(** ... but not for seventeen. *)
Theorem C108_mac_seventeen_refuted : exists ps, length ps = 16%nat /\ Forall (fun p => byte (fst p) /\ byte (snd p)) ps /\
  final mac 0 ((255, 255, 0, 0) :: map (fun p => (fst p, snd p, 0, 1)) ps) < 255 * 255 + zsum (map (fun p => fst p * snd p) ps).
Proof.
  exists (repeat (255, 255) 16). split; [reflexivity|]. split; [|vm_compute; reflexivity].
  apply Forall_forall. intros p Hp. apply repeat_spec in Hp. subst p. unfold byte. cbn. lia.
Qed.
Print Assumptions C108_mac_seventeen_refuted.
Example C108_mac_ex : final mac 0 ((7, 7, 3, 0) :: (255, 255, 0, 0) :: map (fun p => (fst p, snd p, 0, 1)) (repeat (255, 255) 15)) = 1040400.
Proof. reflexivity. Qed.
(** data_buf: the read port shows, in the same clock and whatever rd_en is, what was last written to the address before this clock, 0 at first. *)
Theorem C108_data_buf : forall h t, (t < length h)%nat ->
  nth t (outs data_buf data_buf_init h) 0 = last_write (fst (fst (fst (nth t h (0, 0, 0, 0))))) (firstn t h).
Proof. exact buf_nth. Qed.
Print Assumptions C108_data_buf.
Example C108_data_buf_ex : outs data_buf data_buf_init [(3, 1, 3, 9); (3, 1, 3, 5); (3, 0, 3, 8); (3, 1, 4, 7); (3, 0, 0, 0); (4, 0, 0, 0)] = [0; 9; 5; 5; 5; 7].
Proof. reflexivity. Qed.
(** grayCode: the Gray code of the clock number; neighbours, also across the wrap-around, differ in one bit; every value comes once per period. *)
Theorem C108_gray : forall w n t, (t < n)%nat -> nth t (outs (gray_code w) 0 (repeat tt n)) 0 = gray_at (t mod 2 ^ w).
Proof. exact gray_nth. Qed.
Print Assumptions C108_gray.
Theorem C108_gray_step : forall w n t, w = 4%nat \/ w = 8%nat -> (S t < n)%nat -> let os := outs (gray_code w) 0 (repeat tt n) in
  exists j, (j < w)%nat /\ Z.lxor (nth t os 0) (nth (S t) os 0) = 2 ^ Z.of_nat j.
Proof. exact gray_step. Qed.
Print Assumptions C108_gray_step.
Theorem C108_gray_period : forall w n p v, w = 4%nat \/ w = 8%nat -> 0 <= v < 2 ^ Z.of_nat w -> (p * 2 ^ w + 2 ^ w <= n)%nat ->
  countb (fun i => nth (p * 2 ^ w + i) (outs (gray_code w) 0 (repeat tt n)) 0 =? v) (seq 0 (2 ^ w)) = 1.
Proof. exact gray_count. Qed.
Print Assumptions C108_gray_period.
Example C108_gray_ex : outs (gray_code 4) 0 (repeat tt 18) = [0; 1; 3; 2; 6; 7; 5; 4; 12; 13; 15; 14; 10; 11; 9; 8; 0; 1].
Proof. reflexivity. Qed.
(** LSZ2: one more than the position of the lowest zero, in three bits: position 7 reads as 0, and no zero at all as position 0. *)
Theorem C108_lsz2 : forall x, 0 <= x < 256 -> lsz2 x = Z.of_nat (lowest_zero x + 1) mod 8.
Proof. exact lsz2_spec. Qed.
Print Assumptions C108_lsz2.
Example C108_lsz2_ex : lsz2 127 = 0 /\ lsz2 255 = 1 /\ lsz2 254 = 1 /\ lsz2 7 = 4.
Proof. repeat split; reflexivity. Qed.
(** exp, bit by bit; with no ones at its input it emits randBit[0] & ~randBit[2]. *)
Theorem C108_exp : forall h t, Forall quad h -> (S (S (S t)) < length h)%nat -> let at_ k := nth k h (0, 0, 0, 0) in
  nth (S (S (S t))) (outs exp_rtl exp_init h) 0 =
  b2z (if rb2 (at_ (S (S (S t)))) then
         xin (at_ t) && (negb (rb0 (at_ (S t))) && xin (at_ (S t))) && (rb1 (at_ (S (S t))) || negb (rb0 (at_ (S (S t)))) && xin (at_ (S (S t))))
       else rb0 (at_ (S (S (S t)))) || xin (at_ (S (S (S t))))).
Proof. exact exp_nth. Qed.
Print Assumptions C108_exp.
Theorem C108_exp_zero : forall h t, Forall quad h -> Forall (fun d => snd d = 0) h -> (t < length h)%nat ->
  nth t (outs exp_rtl exp_init h) 0 = b2z (negb (rb2 (nth t h (0, 0, 0, 0))) && rb0 (nth t h (0, 0, 0, 0))).
Proof. exact exp_zero. Qed.
Print Assumptions C108_exp_zero.
Example C108_exp_ex : outs exp_rtl exp_init [(0, 0, 0, 1); (0, 0, 1, 1); (0, 1, 0, 0); (0, 0, 1, 0); (1, 0, 0, 0); (1, 0, 1, 0)] = [1; 0; 0; 1; 1; 0].
Proof. reflexivity. Qed.
