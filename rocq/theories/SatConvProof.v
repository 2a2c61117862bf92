(** Proofs for C82: convolutions. *)
From Coq Require Import String Lqa.
Require Import Verif.BaseLemmas Verif.AddProof Verif.SobolProof Verif.GenModel Verif.GenProof Verif.KernelModel Verif.KernelProof
  Verif.LinearModel Verif.LinearProof Verif.ConvModel Verif.ConvProof Verif.BinConvProof Verif.ChainSpec Verif.ChainProof Verif.NameSpec Verif.NameProof Verif.NewSpec Verif.ConvErrSpec Verif.ProgSpec Verif.ProgProof Verif.NetSpec Verif.NetProof
  Verif.CnnSpec Verif.CnnProof Verif.SatSpec Verif.SatProof Verif.SatLinProof.
Open Scope Z_scope.

(** ** The border *)
Lemma skipn_seq_at a : forall s n, skipn a (seq s n) = seq (s + a) (n - a).
Proof.
  induction a as [|a IH]; intros s n; [rewrite Nat.add_0_r, Nat.sub_0_r; reflexivity|]. destruct n as [|n]; [reflexivity|]. cbn [seq skipn]. rewrite IH. f_equal; lia.
Qed.
Lemma border_list m n : (match m with Unipolar => repeat 0 n | Bipolar => alternating n end) = map (border_bit m) (seq 0 n).
Proof.
  destruct m; [|reflexivity]. generalize 0%nat as s. induction n as [|n IH]; intros s; [reflexivity|]. cbn [repeat seq map]. rewrite (IH (Datatypes.S s)). reflexivity.
Qed.
Lemma border_steady m n0 n : steady m 0 (1 # 2) 0 (map (fun t => border_bit m (n0 + t)) (seq 0 n)).
Proof.
  intros a b Hab. rewrite map_length, seq_length in Hab.
  destruct (border_window m (n0 + a) (b - a) ltac:(lia)) as (pre & xs & E1 & E2 & B1 & L1 & B2 & L2 & D).
  assert (E : stretch a b (map (fun t => border_bit m (n0 + t)) (seq 0 n)) = xs).
  { unfold stretch. rewrite firstn_map, skipn_map, firstn_seq by lia. rewrite border_list in E2.
    apply (f_equal (skipn (n0 + a))) in E2. rewrite skipn_app, <- L1, Nat.sub_diag, skipn_all, L1 in E2. cbn [app skipn] in E2. rewrite <- E2.
    rewrite skipn_map, !skipn_seq_at. rewrite <- (map_map (fun t => (n0 + t)%nat) (border_bit m)). f_equal.
    replace (n0 + a + (b - a) - (n0 + a))%nat with (b - a)%nat by lia. cbn [Nat.add]. generalize (b - a)%nat as k. clear. intros k. revert a. induction k as [|k IH]; intros a; [reflexivity|].
    cbn [seq map]. f_equal. rewrite IH. f_equal. lia. }
  rewrite E. exact D.
Qed.

Lemma fconv_parts_at ext C no kernel stride pad dil groups bias pm we be winit w m_name r_name dimr scale depth c a m :
  fconv_new ext C no kernel stride pad dil groups bias pm (Some we) be winit w m_name r_name dimr scale depth = Ok (c, a) ->
  names_mode m_name m -> named r_name ["sobol"%string; "rc"%string] ->
  a = flin_acc_cfg (cv_pc c) scale depth /\
  fconv_new ext C no kernel stride pad dil groups bias pm (Some we) be winit w m_name r_name dimr None depth = Ok (c, flin_acc_cfg (cv_pc c) None depth).
Proof.
  intros E Hm Hr. pose proof (proj1 (rng_names r_name) Hr) as Hk.
  assert (N : exists a', fconv_new ext C no kernel stride pad dil groups bias pm (Some we) be winit w m_name r_name dimr None depth = Ok (c, a') /\
    fa_mode a' = fa_mode a /\ fa_depth a' = fa_depth a /\ fa_entry a' = fa_entry a /\
    a = {| fa_mode := pc_mode (cv_pc c); fa_scale := Some (match scale with None => match fa_entry a with Some e => inject_Z e | None => 0%Q end | Some q => q end); fa_depth := depth; fa_entry := fa_entry a |}).
  { unfold fconv_new in *. cbv zeta in *. rewrite Hk in *. cbn [is_tc] in *. rewrite !andb_false_r in *.
    destruct (conv_new ext C no kernel stride pad dil groups bias pm (Some we) be winit w m_name r_name dimr) as [c'|e]; [|discriminate]. cbn [bind] in *.
    injection E as <- <-. eexists. split; [reflexivity|]. repeat split. }
  destruct N as (a' & E' & N1 & N2 & N3 & N4). rewrite E'.
  destruct (fconv_parts _ _ _ _ _ _ _ _ _ _ _ _ _ _ _ _ _ _ _ _ _ E' Hm Hr) as (-> & _). split; [|reflexivity].
  cbn [flin_acc_cfg fa_entry] in N3. rewrite <- N3 in N4. exact N4.
Qed.

(** ** Rows and taps by number *)
Definition un_row (wo r : nat) (ho : nat) : nat * nat * nat := (r / (ho * wo), (r mod (ho * wo)) / wo, (r mod (ho * wo)) mod wo)%nat.
Lemma un_row_index ho wo n y x : (y < ho)%nat -> (x < wo)%nat -> un_row wo (row_index ho wo n y x) ho = (n, y, x).
Proof.
  intros Hy Hx. unfold un_row, row_index. assert (B : (y * wo + x < ho * wo)%nat) by nia.
  assert (D : forall q r k, (r < k)%nat -> ((q * k + r) / k = q /\ (q * k + r) mod k = r)%nat).
  { intros q r k Hk. rewrite Nat.add_comm, Nat.div_add, Nat.mod_add, Nat.div_small, Nat.mod_small by lia. split; reflexivity. }
  destruct (D n _ _ B) as [-> ->]. destruct (D y _ _ Hx) as [-> ->]. reflexivity.
Qed.
Lemma row_index_un ho wo N r : (r < N * (ho * wo))%nat -> exists n y x, (n < N)%nat /\ (y < ho)%nat /\ (x < wo)%nat /\ r = row_index ho wo n y x.
Proof.
  intros H. assert (L : (ho * wo <> 0)%nat) by nia. assert (L2 : (wo <> 0)%nat) by nia.
  exists (r / (ho * wo))%nat, ((r mod (ho * wo)) / wo)%nat, ((r mod (ho * wo)) mod wo)%nat.
  split; [apply Nat.div_lt_upper_bound; [exact L|nia]|]. pose proof (Nat.mod_upper_bound r (ho * wo) L) as U.
  split; [apply Nat.div_lt_upper_bound; [exact L2|nia]|]. split; [apply Nat.mod_upper_bound; exact L2|].
  unfold row_index. pose proof (Nat.div_mod r (ho * wo) L) as D1. pose proof (Nat.div_mod (r mod (ho * wo)) wo L2) as D2.
  rewrite D1 at 1. f_equal; [apply Nat.mul_comm|]. rewrite D2 at 1. f_equal. apply Nat.mul_comm.
Qed.

Lemma conv_bits_of N C ho wo os ys : length os = length ys -> Forall (batch_ok (N * (ho * wo)) C) ys ->
  (forall t, (t < length os)%nat -> tensor_ok (fun _ => True) N C ho wo (nth t os []) /\
      forall n o y x, (n < N)%nat -> (o < C)%nat -> (y < ho)%nat -> (x < wo)%nat ->
        entry4 0 (nth t os []) n o y x = entry2 (nth t ys []) (row_index ho wo n y x) o) ->
  Forall (tensor_ok bit N C ho wo) os.
Proof.
  intros Ly Fy Ent.
  apply Forall_forall. intros o Ho. apply (In_nth _ _ []) in Ho. destruct Ho as (t & Ht & <-).
  destruct (Ent t Ht) as [T E].
  assert (Fyt : batch_ok (N * (ho * wo)) C (nth t ys [])) by (rewrite Forall_forall in Fy; apply Fy, nth_In; lia).
  destruct T as [L F]. split; [exact L|]. apply Forall_forall. intros img Hi. apply (In_nth _ _ []) in Hi. destruct Hi as (n & Hn & <-).
  rewrite Forall_forall in F. destruct (F (nth n (nth t os []) []) ltac:(apply nth_In; exact Hn)) as [LC FC]. split; [exact LC|].
  apply Forall_forall. intros ch Hc. apply (In_nth _ _ []) in Hc. destruct Hc as (q & Hq & <-).
  rewrite Forall_forall in FC. destruct (FC (nth q (nth n (nth t os []) []) []) ltac:(apply nth_In; exact Hq)) as [LH FH]. split; [exact LH|].
  apply Forall_forall. intros row Hrow. apply (In_nth _ _ []) in Hrow. destruct Hrow as (y & Hy & <-).
  rewrite Forall_forall in FH. destruct (FH (nth y (nth q (nth n (nth t os []) []) []) []) ltac:(apply nth_In; exact Hy)) as [LW _]. split; [exact LW|].
  apply Forall_forall. intros z Hz. apply (In_nth _ _ 0) in Hz. destruct Hz as (x & Hx & <-).
  change (bit (entry4 0 (nth t os []) n q y x)). rewrite E by lia.
  destruct Fyt as [Lb Fb]. rewrite Forall_forall in Fb.
  assert (HR : (row_index ho wo n y x < N * (ho * wo))%nat) by (apply fold_index; lia).
  destruct (Fb (nth (row_index ho wo n y x) (nth t ys []) []) ltac:(apply nth_In; lia)) as [Lr Br].
  unfold entry2. unfold bits in Br. rewrite Forall_forall in Br. apply Br, nth_In. lia.
Qed.

Lemma lane4_nth h n k y x : lane4 h n k y x = map (fun t => entry4 0 (nth t h []) n k y x) (seq 0 (length h)).
Proof. unfold lane4. symmetry. apply (nth_map_seq_list [] (fun t => entry4 0 t n k y x)). Qed.
Lemma lane_nth h b i : lane h b i = map (fun t => entry2 (nth t h []) b i) (seq 0 (length h)).
Proof. unfold lane. symmetry. apply (nth_map_seq_list [] (fun t => entry2 t b i)). Qed.
Lemma nth_skip {A} (l : list A) n t d : nth t (skipn n l) d = nth (n + t) l d.
Proof. revert l. induction n as [|n IH]; intros l; [reflexivity|]. destruct l as [|x l]; [destruct t; reflexivity|]. apply IH. Qed.

(** ** FSUConv2d *)
Theorem conv_steady : forall ext w m_name r_name m L scale c a, cbuilds_at ext w m_name r_name L scale (c, a) ->
  names_mode m_name m -> named r_name ["sobol"%string; "rc"%string] -> (1 <= w <= 30)%nat -> dirvec_ok 30 (ext_dirvec ext (cl_dim L)) ->
  tensor_ok (src_ok m) (cl_out L) (cl_in L) (fst (cl_kernel L)) (snd (cl_kernel L)) (cl_w L) -> src_opt m (cl_b L) ->
  forall N H W ho wo (used : bool) h1 h2 (X : nat -> nat -> nat -> nat -> Q) q K,
  conv_sizes (cl_kernel L) (cl_stride L) (cl_dil L) (cl_pad L) (cl_in L) H W ho wo -> (1 <= N)%nat ->
  Forall (tensor_ok bit N (cl_in L) H W) h1 -> Forall (tensor_ok bit N (cl_in L) H W) h2 ->
  (used = false -> h1 = []) -> (0 <= q)%Q -> ((1 # 2) <= K)%Q ->
  (forall n k y x, (n < N)%nat -> (k < cl_in L)%nat -> (y < H)%nat -> (x < W)%nat -> (Qabs (X n k y x) <= 1)%Q /\ steady m q K (X n k y x) (lane4 h2 n k y x)) ->
  let e := inject_Z (cl_entries L) in let s := scale_of (cl_entries L) scale in
  (0 < s)%Q -> (e * (K + layer_slack m w true) + 2 * s <= Qpower 2 (cl_depth L - 2))%Q ->
  exists os1 os2, outputs (run_r (fconv_step c a) (fconv_init c) (no_args4 (h1 ++ h2))) = Some (os1 ++ os2) /\
  length os1 = length h1 /\ length os2 = length h2 /\ Forall (tensor_ok bit N (cl_out L) ho wo) os1 /\ Forall (tensor_ok bit N (cl_out L) ho wo) os2 /\
  forall n o y x, (n < N)%nat -> (o < cl_out L)%nat -> (y < ho)%nat -> (x < wo)%nat ->
    steady m (e * (q + grid_step m w / 2) / s) (2 * (e * (K + layer_slack m w true)) / s + 1 + left_over used (cl_depth L) s)
      (clip m (caffine L H W (X n) o y x / s)) (lane4 os2 n o y x).
Proof.
  intros ext w mn rn m L scale c a E Hm Hr Hw HV Hwe Hbe N H W ho wo used h1 h2 X q K Hsz HN Hh1 Hh2 Hu Hq HK HX e s Hs Hd.
  unfold cbuilds_at in E. unfold caffine. subst e s. unfold cl_entries in *.
  destruct (fconv_parts_at _ _ _ _ _ _ _ _ _ _ _ _ _ _ _ _ _ _ _ _ _ _ E Hm Hr) as [-> E']. clear E.
  destruct (fconv_parts _ _ _ _ _ _ _ _ _ _ _ _ _ _ _ _ _ _ _ _ _ E' Hm Hr) as (_ & Sh & Em & Et & Er & Ei & Eo & EC & EK & ES & ED & EP & Ew & Hbl & Eb). clear E'.
  assert (PX : forall n k y x i j, pixel L H W (X n k) y x i j =
    (let yy := Z.of_nat (y * fst (cl_stride L) + i * fst (cl_dil L)) - Z.of_nat (cl_pad L) in
     let xx := Z.of_nat (x * snd (cl_stride L) + j * snd (cl_dil L)) - Z.of_nat (cl_pad L) in
     if (0 <=? yy) && (yy <? Z.of_nat H) && (0 <=? xx) && (xx <? Z.of_nat W) then X n k (Z.to_nat yy) (Z.to_nat xx) else 0%Q)) by reflexivity.
  set (pix := fun n k => pixel L H W (X n k)) in *.
  set (C := cl_in L) in *. set (no := cl_out L) in *. set (kernel := cl_kernel L) in *. set (stride := cl_stride L) in *. set (dil := cl_dil L) in *. set (p := cl_pad L) in *.
  set (bias := cl_bias L) in *. set (we := cl_w L) in *. set (be := cl_b L) in *. set (dimr := cl_dim L) in *. set (depth := cl_depth L) in *.
  assert (PX' : forall n k y x i j, pix n k y x i j =
    (let yy := Z.of_nat (y * fst stride + i * fst dil) - Z.of_nat p in
     let xx := Z.of_nat (x * snd stride + j * snd dil) - Z.of_nat p in
     if (0 <=? yy) && (yy <? Z.of_nat H) && (0 <=? xx) && (xx <? Z.of_nat W) then X n k (Z.to_nat yy) (Z.to_nat xx) else 0%Q)) by exact PX. clear PX.
  destruct Hsz as (Z1 & Z2 & Z3 & Z4 & Z5 & Z6 & Z7 & Z8 & Z9 & Z10).
  assert (GG : conv_geom c p H W ho wo).
  { unfold conv_geom. rewrite EC, EK, ES, ED, EP, Ei. auto 20. }
  set (kh := fst kernel) in *. set (kw := snd kernel) in *.
  assert (Bb : forall o, (o < no)%nat -> bias = true -> src_ok m (bias_entry be o)).
  { intros o Ho Ebias. destruct (Hbl Ebias) as (bl & Ebl & Lb). unfold bias_entry, src_opt in *. rewrite Ebl in *. rewrite Forall_forall in Hbe. apply Hbe. apply nth_In. lia. }
  assert (Be0 : forall o, match be with Some b0 => if bias then nth o b0 0 else 0 | None => 0 end%Q = if bias then bias_entry be o else 0%Q).
  { intros o. destruct bias; [destruct (Hbl eq_refl) as (bl & -> & _); reflexivity|]. destruct be; reflexivity. }
  assert (Hasb : hasb (cv_pc c) = bias) by (unfold hasb; rewrite Eb; destruct bias; [destruct (Hbl eq_refl) as (bl & -> & _)|]; reflexivity).
  assert (Ent0 : Z.of_nat (nent (cv_pc c)) = Z.of_nat (taps C kernel) + b2z bias) by (unfold nent, taps; fold kh kw; rewrite Hasb, Ei; destruct bias; cbn [b2z]; lia).
  assert (Bat : forall o, (o < no)%nat -> bias = true -> bias_at (cv_pc c) o = bingen m w (bias_entry be o)).
  { intros o Ho Eb1. unfold bias_at. rewrite Eb, Eb1. destruct (Hbl Eb1) as (bl & -> & Lb). cbn [option_map bias_entry].
    rewrite nth_indep with (d' := bingen m w 0%Q) by (rewrite map_length; lia). apply map_nth. }
  assert (BI : forall bs o, pc_bias (cv_pc c) = Some bs -> (o < pc_out (cv_pc c))%nat -> 0 <= nth o bs 0 <= p2 w).
  { intros bs o Hbs Ho. rewrite Eo in Ho. assert (X0 : bias = true) by (rewrite Eb in Hbs; destruct bias; [reflexivity|discriminate]).
    pose proof (Bat o Ho X0) as Y. unfold bias_at in Y. rewrite Hbs in Y. rewrite Y. exact (proj1 (bingen_all m w) _ (Bb o Ho X0)). }
  assert (We : forall o k i j, (o < no)%nat -> (k < C)%nat -> (i < kh)%nat -> (j < kw)%nat -> src_ok m (entry4 0%Q we o k i j)) by (intros o k i j Ho Hk Hi Hj; apply (entry4_in (src_ok m) 0%Q no C kh kw); assumption).
  assert (WI : forall o i, (o < pc_out (cv_pc c))%nat -> (i < pc_in (cv_pc c))%nat -> 0 <= entry2 (pc_weight (cv_pc c)) o i <= p2 w).
  { intros o i Ho Hi. rewrite Eo in Ho. rewrite Ei in Hi. destruct (row_index_un kh kw C i Hi) as (k & i' & j & Hk & Hi' & Hj & ->).
    change (row_index kh kw k i' j) with (tap_index kh kw k i' j). rewrite Ew by assumption. apply (proj1 (bingen_all m w)), We; assumption. }
  set (h := h1 ++ h2). assert (Hh : Forall (tensor_ok bit N (cv_chan c) H W) h) by (rewrite EC; apply Forall_app; split; assumption).
  destruct (fconv_windows c (flin_acc_cfg (cv_pc c) scale depth) p N H W ho wo (no_args4 h) GG HN) as (g & ys & os & A1 & A2 & A3 & TAP & R1 & R2 & Lo & Ent);
    [rewrite fc_inputs_no_args; exact Hh|].
  rewrite fc_inputs_no_args, Em, EC, EK, ES, ED in TAP. fold kh kw in TAP.
  assert (Lh : length (no_args4 h) = length h) by (unfold no_args4; apply map_length). rewrite Lh in *.
  assert (Eg : g = no_args (fl_inputs g)).
  { assert (forall h' : list (list (image Z)), map (fun x => snd (fst x)) g = map (fun x => snd (fst x)) (no_args4 h') -> map snd g = map snd (no_args4 h') -> g = no_args (fl_inputs g)) as Q.
    { clear. induction g as [|[[x s] e] g IH]; intros h' E1 E2; [reflexivity|]. destruct h' as [|x' h']; [discriminate|].
      cbn in E1, E2. injection E1 as -> E1. injection E2 as -> E2. unfold no_args, fl_inputs in *. cbn [map fst]. f_equal. apply (IH h'); assumption. }
    exact (Q h A1 A2). }
  assert (Lg : length (fl_inputs g) = length h).
  { unfold fl_inputs. rewrite map_length, <- (map_length snd g), A2, map_length. exact Lh. }
  set (rows := fl_inputs g) in *. clearbody rows. subst g. clear A1 A2.
  assert (L12 : length h = (length h1 + length h2)%nat) by (unfold h; apply app_length).
  set (r1 := firstn (length h1) rows). set (r2 := skipn (length h1) rows).
  assert (E12 : r1 ++ r2 = rows) by apply firstn_skipn.
  assert (Lr1 : length r1 = length h1) by (unfold r1; rewrite firstn_length; lia).
  assert (Lr2 : length r2 = length h2) by (unfold r2; rewrite skipn_length; lia).
  rewrite <- E12 in A3. apply Forall_app in A3. destruct A3 as [A31 A32].
  assert (HB : (1 <= N * (ho * wo))%nat).
  { destruct GG as (_ & _ & _ & _ & _ & _ & _ & _ & _ & G1 & G2 & _). nia. }
  set (xq := fun r t => match un_row wo r ho, un_row kw t kh with ((n, y), x), ((k, i), j) => pix n k y x i j end).
  assert (XQ : forall n y x k i j, (y < ho)%nat -> (x < wo)%nat -> (i < kh)%nat -> (j < kw)%nat -> xq (row_index ho wo n y x) (tap_index kh kw k i j) = pix n k y x i j).
  { intros n y x k i j Hy Hx Hi Hj. unfold xq. rewrite un_row_index by assumption. change (tap_index kh kw k i j) with (row_index kh kw k i j). rewrite un_row_index by assumption. reflexivity. }
  assert (PA : forall n k y x i j, (n < N)%nat -> (k < C)%nat -> (Qabs (pix n k y x i j) <= 1)%Q).
  { intros n k y x i j Hn Hk. rewrite PX'. cbv zeta. match goal with |- context [if ?b then _ else _] => destruct b eqn:B end; [|discriminate].
    apply HX; try assumption; lia. }
  assert (ST : forall b i, (b < N * (ho * wo))%nat -> (i < pc_in (cv_pc c))%nat -> steady m q K (xq b i) (lane r2 b i)).
  { intros b i Hb Hi. rewrite Ei in Hi. destruct (row_index_un ho wo N b Hb) as (n & y & x & Hn & Hy & Hx & ->).
    destruct (row_index_un kh kw C i Hi) as (k & i' & j & Hk & Hi' & Hj & ->). change (row_index kh kw k i' j) with (tap_index kh kw k i' j). rewrite XQ by assumption.
    assert (EL : lane r2 (row_index ho wo n y x) (tap_index kh kw k i' j) =
      map (fun t => surrounded (border_bit m (length h1 + t)) H W (nth (length h1 + t) h []) n k (Z.of_nat (y * fst stride + i' * fst dil) - Z.of_nat p) (Z.of_nat (x * snd stride + j * snd dil) - Z.of_nat p)) (seq 0 (length h2))).
    { rewrite lane_nth, Lr2. apply map_ext_in. intros t Ht. apply in_seq in Ht. unfold r2. rewrite nth_skip. apply TAP; try assumption. lia. }
    rewrite EL, PX'. cbv zeta. unfold surrounded. set (yy := Z.of_nat (y * fst stride + i' * fst dil) - Z.of_nat p). set (xx := Z.of_nat (x * snd stride + j * snd dil) - Z.of_nat p).
    destruct ((0 <=? yy) && (yy <? Z.of_nat H) && (0 <=? xx) && (xx <? Z.of_nat W)) eqn:Ins.
    - destruct (HX n k (Z.to_nat yy) (Z.to_nat xx) Hn Hk ltac:(lia) ltac:(lia)) as [_ P].
      replace (map _ (seq 0 (length h2))) with (lane4 h2 n k (Z.to_nat yy) (Z.to_nat xx)); [exact P|].
      rewrite lane4_nth. apply map_ext_in. intros t Ht. apply in_seq in Ht. unfold h. rewrite app_nth2, Nat.add_comm, Nat.add_sub by lia.
      apply (entry4_default bit _ _ N C H W); try assumption; try lia. rewrite Forall_forall in Hh2. apply Hh2, nth_In. lia.
    - apply (steady_le m 0 q (1 # 2) K); [exact Hq|exact HK|]. apply border_steady. }
  pose proof (pc_steady m ext w dimr (cv_pc c) (N * (ho * wo)) Hw HV Sh Em Et Er WI BI HB scale depth used r1 r2 xq q K A31 A32) as P.
  specialize (P ltac:(intros U; rewrite (Hu U) in Lr1; destruct r1; [reflexivity|discriminate]) Hq ltac:(lra) ST).
  cbv zeta in P. rewrite Ent0 in P. fold (scale_of (Z.of_nat (taps C kernel) + b2z bias) scale) in P. specialize (P Hs Hd).
  destruct P as (ys1 & ys2 & RR & Ly1 & Ly2 & F1 & F2 & P). rewrite E12, R1 in RR. injection RR as ->.
  rewrite Eo in Ent, F1, F2, P.
  assert (Ly : length os = length (ys1 ++ ys2)) by (rewrite app_length; lia).
  assert (Ent' : forall t, (t < length os)%nat -> tensor_ok (fun _ => True) N no ho wo (nth t os []) /\
      forall n o y x, (n < N)%nat -> (o < no)%nat -> (y < ho)%nat -> (x < wo)%nat ->
        entry4 0 (nth t os []) n o y x = entry2 (nth t (ys1 ++ ys2) []) (row_index ho wo n y x) o) by (intros t Ht; apply Ent; lia).
  pose proof (conv_bits_of N no ho wo os (ys1 ++ ys2) Ly ltac:(apply Forall_app; split; assumption) Ent') as Fo.
  exists (firstn (length h1) os), (skipn (length h1) os). rewrite firstn_skipn. split; [exact R2|].
  split; [rewrite firstn_length; lia|]. split; [rewrite skipn_length; lia|].
  split; [apply forall_firstn; exact Fo|]. split; [rewrite <- (firstn_skipn (length h1) os) in Fo; apply Forall_app in Fo; exact (proj2 Fo)|].
  intros n o y x Hn Ho Hy Hx.
  assert (HR : (row_index ho wo n y x < N * (ho * wo))%nat) by (apply fold_index; assumption).
  specialize (P (row_index ho wo n y x) o HR Ho). rewrite Hasb in P. rewrite Be0. unfold left_over. change (qpow2 (depth - 2)) with (Qpower 2 (depth - 2)) in P. unfold held in P.
  replace (lane4 (skipn (length h1) os) n o y x) with (lane ys2 (row_index ho wo n y x) o).
  2:{ rewrite lane_nth, lane4_nth, skipn_length. replace (length os - length h1)%nat with (length ys2) by lia. apply map_ext_in. intros t Ht. apply in_seq in Ht.
      rewrite nth_skip, (proj2 (Ent' (length h1 + t)%nat ltac:(lia))) by assumption. rewrite app_nth2 by lia. do 2 f_equal. lia. }
  set (ne := inject_Z (Z.of_nat (taps C kernel) + b2z bias)) in *. set (s := scale_of _ scale) in *.
  pose proof (grid_step_pos m w) as GP.
  set (V := (sumq_taps C kh kw (fun k i j => pix n k y x i j * entry4 0 we o k i j) + (if bias then bias_entry be o else 0))%Q).
  apply (steady_move m _ _ _ (clip m (V / s)) (ne * (grid_step m w / 2) / s)%Q) in P.
  - eapply steady_ext; [| | |exact P]; [field; lra|reflexivity|reflexivity].
  - apply clip_near. unfold V. rewrite Ei. clear V.
    set (wq := fun t => match un_row kw t kh with ((k, i), j) => entry4 0%Q we o k i j end).
    assert (ES2 : (sumq_taps C kh kw (fun k i j => pix n k y x i j * entry4 0 we o k i j) == qtotal (C * (kh * kw)) (fun t => xq (row_index ho wo n y x) t * wq t))%Q).
    { unfold qtotal. change (map ?f (seq 0 ?n)) with (tab n f). rewrite sumq_taps_tab. apply sumq_taps_ext. intros k i j Hk Hi Hj. rewrite XQ by assumption. unfold wq.
      change (tap_index kh kw k i j) with (row_index kh kw k i j). rewrite un_row_index by assumption. reflexivity. }
    rewrite ES2.
    assert (D : (Qabs (qtotal (C * (kh * kw)) (fun t => xq (row_index ho wo n y x) t * grid_value m w (entry2 (pc_weight (cv_pc c)) o t)) - qtotal (C * (kh * kw)) (fun t => xq (row_index ho wo n y x) t * wq t)) <= inject_Z (Z.of_nat (C * (kh * kw))) * (grid_step m w / 2))%Q).
    { unfold qtotal. replace (Z.of_nat (C * (kh * kw))) with (zlen (seq 0 (C * (kh * kw)))) by (unfold zlen; rewrite seq_length; reflexivity). apply sum_err. intros t Ht. apply in_seq in Ht.
      destruct (row_index_un kh kw C t ltac:(lia)) as (k & i & j & Hk & Hi & Hj & ->). unfold wq. rewrite un_row_index by assumption.
      change (row_index kh kw k i j) with (tap_index kh kw k i j). rewrite XQ, Ew by assumption. pose proof (PA n k y x i j Hn Hk) as A.
      pose proof (grid_err m w (entry4 0%Q we o k i j)) as GE. set (gv := grid_value m w (bingen m w (entry4 0%Q we o k i j))) in *. set (wv := entry4 0%Q we o k i j) in *. set (xv := pix n k y x i j) in *. clearbody gv wv xv.
      assert (EX : (xv * gv - xv * wv == xv * (gv - wv))%Q) by ring. rewrite EX, Qabs_Qmult. pose proof (Qabs_nonneg (gv - wv)). pose proof (Qabs_nonneg xv). nra. }
    assert (D2 : (Qabs ((if bias then grid_value m w (bias_at (cv_pc c) o) else 0) - (if bias then bias_entry be o else 0)) <= inject_Z (b2z bias) * (grid_step m w / 2))%Q).
    { destruct bias eqn:Ebb; cbn [b2z]; [rewrite (Bat o Ho eq_refl)|apply qabs_le; change (inject_Z 0) with 0%Q; lra].
      change (inject_Z 1) with 1%Q. pose proof (grid_err m w (bias_entry be o)). lra. }
    assert (En : (ne == inject_Z (Z.of_nat (C * (kh * kw))) + inject_Z (b2z bias))%Q) by (unfold ne; rewrite inject_Z_plus; reflexivity).
    set (S1 := qtotal (C * (kh * kw)) (fun t => xq (row_index ho wo n y x) t * grid_value m w (entry2 (pc_weight (cv_pc c)) o t))%Q) in *. set (S2 := qtotal (C * (kh * kw)) (fun t => xq (row_index ho wo n y x) t * wq t)%Q) in *.
    set (T1 := if bias then grid_value m w (bias_at (cv_pc c) o) else 0%Q) in *. set (T2 := if bias then bias_entry be o else 0%Q) in *.
    clearbody S1 S2 T1 T2 s ne. clear - D D2 En Hs GP.
    assert (EX : ((S1 + T1) / s - (S2 + T2) / s == (S1 - S2 + (T1 - T2)) / s)%Q) by (field; lra).
    rewrite EX. unfold Qdiv. rewrite Qabs_Qmult, (Qabs_pos (/ s)) by (apply Qlt_le_weak, Qinv_lt_0_compat, Hs).
    apply Qmult_le_compat_r; [|apply Qlt_le_weak, Qinv_lt_0_compat, Hs]. eapply Qle_trans; [apply Qabs_triangle|]. rewrite En. unfold Qdiv in D, D2. lra.
Qed.
