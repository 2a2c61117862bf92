(** Proofs about FSUConv2dPC and FSUConv2d. *)
From Coq Require Import String.
Require Import Verif.BaseLemmas Verif.GenModel Verif.AddModel Verif.KernelModel Verif.UtilsModel Verif.LinearModel Verif.ConvModel.
Require Import Verif.GenProof Verif.AddProof Verif.KernelProof Verif.UtilsProof Verif.LinearProof.
Open Scope Z_scope.

(** ** Concatenations of pieces of equal length *)
Lemma flat_map_length {A B} (f : A -> list B) m l : (forall a, In a l -> length (f a) = m) -> length (flat_map f l) = (length l * m)%nat.
Proof.
  induction l as [|a l IH]; intros H; [reflexivity|]. cbn [flat_map length]. rewrite app_length, IH, (H a) by (try left; intros; try apply H; try right; auto).
  lia.
Qed.

Lemma flat_map_nth {A B} (f : A -> list B) m l i j da d : (forall a, In a l -> length (f a) = m) ->
  (i < length l)%nat -> (j < m)%nat -> nth (i * m + j) (flat_map f l) d = nth j (f (nth i l da)) d.
Proof.
  revert i. induction l as [|a l IH]; intros i H Hi Hj; [cbn in Hi; lia|].
  cbn [flat_map]. assert (La : length (f a) = m) by (apply H; left; reflexivity).
  destruct i as [|i].
  - rewrite app_nth1 by lia. reflexivity.
  - rewrite app_nth2 by lia. replace (S i * m + j - length (f a))%nat with (i * m + j)%nat by lia.
    cbn [nth]. apply IH; [intros b Hb; apply H; right; exact Hb|cbn [length] in Hi; lia|exact Hj].
Qed.

Lemma Forall_flat_map {A B} (P : B -> Prop) (f : A -> list B) l : (forall a, In a l -> Forall P (f a)) -> Forall P (flat_map f l).
Proof.
  induction l as [|a l IH]; intros H; [constructor|]. cbn [flat_map]. apply Forall_app. split; [apply H; left; reflexivity|].
  apply IH. intros b Hb. apply H. right. exact Hb.
Qed.

(** ** Padding *)
Lemma pad_axis_length {A} l r (v : A) xs : length (pad_axis l r v xs) = (l + length xs + r)%nat.
Proof. unfold pad_axis. rewrite !app_length, !repeat_length. lia. Qed.

Lemma nth_repeat_lt {A} (v d : A) n k : (k < n)%nat -> nth k (repeat v n) d = v.
Proof. revert k. induction n as [|n IH]; intros [|k] H; cbn; try lia; [reflexivity|]. apply IH. lia. Qed.

Lemma pad_axis_nth {A} l r (v : A) xs k d : (k < l + length xs + r)%nat ->
  nth k (pad_axis l r v xs) d = if ((l <=? k) && (k <? l + length xs))%nat then nth (k - l) xs d else v.
Proof.
  intros H. unfold pad_axis. destruct (Nat.leb_spec l k) as [H1|H1]; cbn [andb].
  - rewrite app_nth2 by (rewrite repeat_length; exact H1). rewrite repeat_length.
    destruct (Nat.ltb_spec k (l + length xs)) as [H2|H2].
    + apply app_nth1. lia.
    + rewrite app_nth2 by lia. apply nth_repeat_lt. lia.
  - rewrite app_nth1 by (rewrite repeat_length; exact H1). apply nth_repeat_lt, H1.
Qed.

Definition chan_shape {A} (H W : nat) (ch : list (list A)) : Prop := length ch = H /\ Forall (fun row => length row = W) ch.

Lemma hd_nth {A} (l : list A) d : hd d l = nth 0 l d.
Proof. destruct l; reflexivity. Qed.

Lemma pad_channel_shape {A} t b l r (v : A) H W ch : (1 <= H)%nat -> chan_shape H W ch ->
  chan_shape (t + H + b) (l + W + r) (pad_channel t b l r v ch).
Proof.
  intros HH [L F]. unfold pad_channel.
  assert (F' : Forall (fun row => length row = (l + W + r)%nat) (map (pad_axis l r v) ch)).
  { rewrite Forall_map. eapply Forall_impl; [|exact F]. intros row Hr. cbn beta in Hr. rewrite pad_axis_length, Hr. reflexivity. }
  assert (Hw : length (hd [] (map (pad_axis l r v) ch)) = (l + W + r)%nat).
  { rewrite hd_nth. apply (Forall_nth_lt _ _ 0 [] F'). rewrite map_length. lia. }
  rewrite Hw. split; [rewrite pad_axis_length, map_length, L; reflexivity|].
  unfold pad_axis at 1. rewrite !Forall_app. split; [|split; [exact F'|]];
    apply Forall_forall; intros x Hx; apply repeat_spec in Hx; subst x; apply repeat_length.
Qed.

Lemma map_nth_lt' {A B} (f : A -> B) l i d d' : (i < length l)%nat -> nth i (map f l) d' = f (nth i l d).
Proof. intros Hi. rewrite (nth_indep _ d' (f d)) by (rewrite map_length; exact Hi). apply map_nth. Qed.

Lemma pad_channel_nth {A} t b l r (v d : A) H W ch y x : (1 <= H)%nat -> chan_shape H W ch ->
  (y < t + H + b)%nat -> (x < l + W + r)%nat ->
  nth x (nth y (pad_channel t b l r v ch) []) d =
  if ((t <=? y) && (y <? t + H) && (l <=? x) && (x <? l + W))%nat then nth (x - l) (nth (y - t) ch []) d else v.
Proof.
  intros HH [L F] Hy Hx. unfold pad_channel.
  assert (F' : Forall (fun row => length row = (l + W + r)%nat) (map (pad_axis l r v) ch)).
  { rewrite Forall_map. eapply Forall_impl; [|exact F]. intros row Hr. cbn beta in Hr. rewrite pad_axis_length, Hr. reflexivity. }
  assert (Hw : length (hd [] (map (pad_axis l r v) ch)) = (l + W + r)%nat).
  { rewrite hd_nth. apply (Forall_nth_lt _ _ 0 [] F'). rewrite map_length. lia. }
  rewrite Hw, pad_axis_nth by (rewrite map_length, L; exact Hy). rewrite map_length, L.
  destruct ((t <=? y) && (y <? t + H))%nat eqn:E; cbn [andb].
  - apply andb_prop in E. destruct E as [E1 E2]. apply Nat.leb_le in E1. apply Nat.ltb_lt in E2.
    rewrite (map_nth_lt' _ _ _ []) by lia.
    assert (Lr : length (nth (y - t) ch []) = W) by (apply (Forall_nth_lt _ ch _ [] F); lia).
    rewrite pad_axis_nth by (rewrite Lr; exact Hx). rewrite Lr. reflexivity.
  - apply nth_repeat_lt, Hx.
Qed.

(** ** Windows *)
Lemma window_row_length {A} (v : A) k s d img y x C : length img = C -> length (window_row v k s d img y x) = (C * (fst k * snd k))%nat.
Proof.
  intros <-. unfold window_row. apply flat_map_length. intros ch _.
  rewrite (flat_map_length _ (snd k)) by (intros; rewrite map_length, seq_length; reflexivity).
  rewrite seq_length. reflexivity.
Qed.

Lemma window_row_nth {A} (v : A) k s d img y x c i j : (c < length img)%nat -> (i < fst k)%nat -> (j < snd k)%nat ->
  nth (c * (fst k * snd k) + (i * snd k + j)) (window_row v k s d img y x) v =
  nth (x * snd s + j * snd d) (nth (y * fst s + i * fst d) (nth c img []) []) v.
Proof.
  intros Hc Hi Hj. unfold window_row.
  rewrite (flat_map_nth _ (fst k * snd k) img c (i * snd k + j) []).
  - rewrite (flat_map_nth _ (snd k) (seq 0 (fst k)) i j 0%nat).
    + rewrite (map_nth_lt' _ _ _ 0%nat) by (rewrite seq_length; exact Hj). rewrite !seq_nth by assumption. cbn [Nat.add]. reflexivity.
    + intros. rewrite map_length, seq_length. reflexivity.
    + rewrite seq_length. exact Hi.
    + exact Hj.
  - intros ch _. rewrite (flat_map_length _ (snd k)) by (intros; rewrite map_length, seq_length; reflexivity).
    rewrite seq_length. reflexivity.
  - exact Hc.
  - nia.
Qed.

Lemma nth_Forall_or {A} (P : A -> Prop) l k d : Forall P l -> P d -> P (nth k l d).
Proof. intros F D. destruct (Nat.lt_ge_cases k (length l)); [apply Forall_nth_lt; assumption|rewrite nth_overflow by assumption; exact D]. Qed.

Lemma window_row_all {A} (P : A -> Prop) (v : A) k s d img y x : Forall (Forall (Forall P)) img -> P v -> Forall P (window_row v k s d img y x).
Proof.
  intros F Pv. unfold window_row. apply Forall_flat_map. intros ch Hch. apply Forall_flat_map. intros i _.
  rewrite Forall_map. apply Forall_forall. intros j _. apply nth_Forall_or; [|exact Pv].
  apply nth_Forall_or; [|constructor]. rewrite Forall_forall in F. apply F, Hch.
Qed.

(** The rows of all windows, as [unfold_rows] lists them. *)
Definition rows_of {A} (v : A) (k s d : nat * nat) (ho wo : nat) (imgs : list (image A)) : list (list A) :=
  flat_map (fun img => flat_map (fun y => map (window_row v k s d img y) (seq 0 wo)) (seq 0 ho)) imgs.

Lemma rows_of_length {A} (v : A) k s d ho wo imgs : length (rows_of v k s d ho wo imgs) = (length imgs * (ho * wo))%nat.
Proof.
  unfold rows_of. apply flat_map_length. intros img _. rewrite (flat_map_length _ wo) by (intros; rewrite map_length, seq_length; reflexivity).
  rewrite seq_length. reflexivity.
Qed.

Lemma rows_of_nth {A} (v : A) k s d ho wo imgs n y x : (n < length imgs)%nat -> (y < ho)%nat -> (x < wo)%nat ->
  nth (n * (ho * wo) + (y * wo + x)) (rows_of v k s d ho wo imgs) [] = window_row v k s d (nth n imgs []) y x.
Proof.
  intros Hn Hy Hx. unfold rows_of. rewrite (flat_map_nth _ (ho * wo) imgs n (y * wo + x) []).
  - rewrite (flat_map_nth _ wo (seq 0 ho) y x 0%nat).
    + rewrite (map_nth_lt' _ _ _ 0%nat) by (rewrite seq_length; exact Hx). rewrite !seq_nth by assumption. cbn [Nat.add]. reflexivity.
    + intros. rewrite map_length, seq_length. reflexivity.
    + rewrite seq_length. exact Hy.
    + exact Hx.
  - intros img _. rewrite (flat_map_length _ wo) by (intros; rewrite map_length, seq_length; reflexivity). rewrite seq_length. reflexivity.
  - exact Hn.
  - nia.
Qed.

Lemma rows_of_all {A} (P : A -> Prop) (v : A) k s d ho wo imgs C : Forall (fun img => length img = C /\ Forall (Forall (Forall P)) img) imgs -> P v ->
  Forall (fun r => length r = (C * (fst k * snd k))%nat /\ Forall P r) (rows_of v k s d ho wo imgs).
Proof.
  intros F Pv. unfold rows_of. apply Forall_flat_map. intros img Hi. apply Forall_flat_map. intros y _.
  rewrite Forall_map. apply Forall_forall. intros x _. rewrite Forall_forall in F. destruct (F img Hi) as [L G].
  split; [apply window_row_length, L|apply window_row_all; assumption].
Qed.

(** ** Windows of padded images *)
Lemma pad_axis_all {A} (P : A -> Prop) l r v xs : Forall P xs -> P v -> Forall P (pad_axis l r v xs).
Proof.
  intros F Pv. unfold pad_axis. rewrite !Forall_app. split; [|split; [exact F|]];
    apply Forall_forall; intros x Hx; apply repeat_spec in Hx; subst x; exact Pv.
Qed.

Lemma pad_channel_all {A} (P : A -> Prop) t b l r v ch : Forall (Forall P) ch -> P v -> Forall (Forall P) (pad_channel t b l r v ch).
Proof.
  intros F Pv. unfold pad_channel. apply pad_axis_all.
  - rewrite Forall_map. eapply Forall_impl; [|exact F]. intros row Hr. apply pad_axis_all; assumption.
  - apply Forall_forall. intros x Hx. apply repeat_spec in Hx. subst x. exact Pv.
Qed.

Definition pad_all {A} (t b l r : nat) (v : A) (imgs : list (image A)) : list (image A) := map (map (pad_channel t b l r v)) imgs.

Lemma tensor_chan {A} (P : A -> Prop) N C H W (imgs : list (image A)) n c : tensor_ok P N C H W imgs -> (n < N)%nat -> (c < C)%nat ->
  chan_shape H W (nth c (nth n imgs []) []).
Proof.
  intros [L F] Hn Hc. destruct (Forall_nth_lt _ imgs n [] F ltac:(lia)) as [L1 F1].
  destruct (Forall_nth_lt _ _ c [] F1 ltac:(lia)) as [L2 F2]. split; [exact L2|]. eapply Forall_impl; [|exact F2]. intros row Hr. apply Hr.
Qed.

Lemma tensor_size {A} (P : A -> Prop) N C H W (imgs : list (image A)) : tensor_ok P N C H W imgs -> (1 <= N)%nat -> (1 <= C)%nat -> (1 <= H)%nat ->
  size_hw imgs = (H, W).
Proof.
  intros T HN HC HH. pose proof (tensor_chan P N C H W imgs 0 0 T ltac:(lia) ltac:(lia)) as [L F]. destruct T as [LN FN].
  destruct imgs as [|img imgs]; [cbn in LN; lia|]. pose proof (Forall_inv FN) as [LC _]. destruct img as [|ch img]; [cbn in LC; lia|].
  cbn [nth] in L, F. unfold size_hw. rewrite hd_nth. f_equal; [exact L|]. apply (Forall_nth_lt _ ch 0 [] F). lia.
Qed.

Lemma pad_all_tensor {A} (P : A -> Prop) t b l r v N C H W (imgs : list (image A)) : tensor_ok P N C H W imgs -> P v -> (1 <= H)%nat ->
  tensor_ok P N C (t + H + b) (l + W + r) (pad_all t b l r v imgs).
Proof.
  intros [L F] Pv HH. split; [unfold pad_all; rewrite map_length; exact L|]. unfold pad_all. rewrite Forall_map.
  eapply Forall_impl; [|exact F]. intros img [LC FC]. split; [rewrite map_length; exact LC|]. rewrite Forall_map.
  eapply Forall_impl; [|exact FC]. intros ch [LH FH].
  assert (Sh : chan_shape H W ch) by (split; [exact LH|]; eapply Forall_impl; [|exact FH]; intros row Hr; apply Hr).
  destruct (pad_channel_shape t b l r v H W ch HH Sh) as [L1 F1]. split; [exact L1|].
  assert (F2 : Forall (Forall P) (pad_channel t b l r v ch)).
  { apply pad_channel_all; [|exact Pv]. eapply Forall_impl; [|exact FH]. intros row Hr. apply Hr. }
  apply Forall_forall. intros row Hr. rewrite Forall_forall in F1, F2. split; [apply F1|apply F2]; exact Hr.
Qed.

Lemma pad_all_entry {A} (P : A -> Prop) t b l r v N C H W (imgs : list (image A)) n c y x : tensor_ok P N C H W imgs -> (1 <= H)%nat ->
  (n < N)%nat -> (c < C)%nat -> (y < t + H + b)%nat -> (x < l + W + r)%nat ->
  entry4 v (pad_all t b l r v imgs) n c y x = surrounded v H W imgs n c (Z.of_nat y - Z.of_nat t) (Z.of_nat x - Z.of_nat l).
Proof.
  intros T HH Hn Hc Hy Hx. pose proof (tensor_chan P N C H W imgs n c T Hn Hc) as Sh.
  unfold entry4 at 1, pad_all. destruct T as [LN FN].
  destruct (Forall_nth_lt _ imgs n [] FN ltac:(lia)) as [LC _].
  rewrite (map_nth_lt' _ imgs n []) by lia. rewrite (map_nth_lt' _ (nth n imgs []) c []) by lia.
  rewrite (pad_channel_nth t b l r v v H W _ y x HH Sh Hy Hx). unfold surrounded, entry4.
  replace (Z.to_nat (Z.of_nat y - Z.of_nat t)) with (y - t)%nat by lia.
  replace (Z.to_nat (Z.of_nat x - Z.of_nat l)) with (x - l)%nat by lia.
  destruct ((t <=? y) && (y <? t + H) && (l <=? x) && (x <? l + W))%nat eqn:E1,
    ((0 <=? Z.of_nat y - Z.of_nat t) && (Z.of_nat y - Z.of_nat t <? Z.of_nat H) && (0 <=? Z.of_nat x - Z.of_nat l) && (Z.of_nat x - Z.of_nat l <? Z.of_nat W)) eqn:E2; try reflexivity; lia.
Qed.

(** An axis of n entries: window position y, tap i. *)
Lemma unfold_axis_in n k s d y i : (1 <= s)%nat -> (1 <= k)%nat -> (Z.of_nat y < unfold_axis n k s d) -> (i < k)%nat -> (y * s + i * d < n)%nat.
Proof.
  intros Hs Hk Hy Hi. unfold unfold_axis in Hy.
  assert (Z.of_nat y <= (Z.of_nat n - Z.of_nat d * (Z.of_nat k - 1) - 1) / Z.of_nat s) by lia.
  assert (Z.of_nat s * ((Z.of_nat n - Z.of_nat d * (Z.of_nat k - 1) - 1) / Z.of_nat s) <= Z.of_nat n - Z.of_nat d * (Z.of_nat k - 1) - 1)
    by (apply Z.mul_div_le; lia).
  nia.
Qed.

Lemma tensor_all {A} (P : A -> Prop) N C H W (imgs : list (image A)) : tensor_ok P N C H W imgs ->
  Forall (fun img => length img = C /\ Forall (Forall (Forall P)) img) imgs.
Proof.
  intros [_ F]. eapply Forall_impl; [|exact F]. intros img [LC FC]. split; [exact LC|]. eapply Forall_impl; [|exact FC].
  intros ch [_ FH]. eapply Forall_impl; [|exact FH]. intros row Hr. apply Hr.
Qed.

Lemma window_entry {A} (P : A -> Prop) t b l r v k s d N C H W (imgs : list (image A)) n y x c i j :
  tensor_ok P N C H W imgs -> (1 <= H)%nat -> (1 <= fst s)%nat -> (1 <= snd s)%nat ->
  (n < N)%nat -> (c < C)%nat -> (i < fst k)%nat -> (j < snd k)%nat ->
  let ho := unfold_axis (t + H + b) (fst k) (fst s) (fst d) in
  let wo := unfold_axis (l + W + r) (snd k) (snd s) (snd d) in
  Z.of_nat y < ho -> Z.of_nat x < wo ->
  nth (c * (fst k * snd k) + (i * snd k + j))
      (nth (n * (Z.to_nat ho * Z.to_nat wo) + (y * Z.to_nat wo + x)) (rows_of v k s d (Z.to_nat ho) (Z.to_nat wo) (pad_all t b l r v imgs)) []) v =
  surrounded v H W imgs n c (Z.of_nat (y * fst s + i * fst d) - Z.of_nat t) (Z.of_nat (x * snd s + j * snd d) - Z.of_nat l).
Proof.
  intros T HH Hs1 Hs2 Hn Hc Hi Hj ho wo Hy Hx.
  assert (LN : length (pad_all t b l r v imgs) = N) by (unfold pad_all; rewrite map_length; apply T).
  rewrite rows_of_nth by (try rewrite LN; lia).
  assert (LC : length (nth n (pad_all t b l r v imgs) []) = C).
  { unfold pad_all. destruct T as [LN' FN]. rewrite (map_nth_lt' _ imgs n []) by lia. rewrite map_length.
    apply (Forall_nth_lt _ imgs n [] FN). lia. }
  rewrite window_row_nth by (try rewrite LC; assumption).
  fold (entry4 v (pad_all t b l r v imgs) n c (y * fst s + i * fst d) (x * snd s + j * snd d)).
  apply (pad_all_entry P t b l r v N C H W); try assumption.
  - apply (unfold_axis_in _ (fst k) _ _ y i); lia || assumption.
  - apply (unfold_axis_in _ (snd k) _ _ x j); lia || assumption.
Qed.

(** ** Folding *)
Definition tab4 {A} (n o h w : nat) (f : nat -> nat -> nat -> nat -> A) : list (image A) :=
  tab n (fun b => tab o (fun q => tab2 h w (f b q))).

Lemma fold_index b y x n ho wo : (b < n)%nat -> (y < ho)%nat -> (x < wo)%nat -> (b * (ho * wo) + (y * wo + x) < n * (ho * wo))%nat.
Proof.
  intros Hb Hy Hx. assert (y * wo + x < ho * wo)%nat by nia. set (L := (ho * wo)%nat) in *. set (k := (y * wo + x)%nat) in *. nia.
Qed.

Lemma fold_rows_tab {A} (d : A) n o ho wo f : fold_rows d n o ho wo (tab2 (n * (ho * wo)) o f) =
  tab4 n o ho wo (fun b q y x => f (b * (ho * wo) + (y * wo + x))%nat q).
Proof.
  unfold fold_rows, tab4. apply tab_ext. intros b Hb. apply tab_ext. intros q Hq. apply tab_ext. intros y Hy. apply tab_ext. intros x Hx.
  unfold tab2. rewrite tab_nth by (apply fold_index; assumption). apply tab_nth, Hq.
Qed.

Lemma tab4_ext {A} n o h w (f g : nat -> nat -> nat -> nat -> A) :
  (forall b q y x, (b < n)%nat -> (q < o)%nat -> (y < h)%nat -> (x < w)%nat -> f b q y x = g b q y x) -> tab4 n o h w f = tab4 n o h w g.
Proof. intros E. apply tab_ext. intros b Hb. apply tab_ext. intros q Hq. apply tab2_ext. intros. apply E; assumption. Qed.

Lemma map2_tab4 {A B C} (g : A -> B -> C) n o h w f1 f2 :
  map2 (map2 (map2 (map2 g))) (tab4 n o h w f1) (tab4 n o h w f2) = tab4 n o h w (fun b q y x => g (f1 b q y x) (f2 b q y x)).
Proof.
  unfold tab4, tab2. rewrite map2_tab. apply tab_ext. intros b _. rewrite map2_tab. apply tab_ext. intros q _. rewrite map2_tab.
  apply tab_ext. intros y _. apply map2_tab.
Qed.

Lemma map_tab4 {A B} (g : A -> B) n o h w f :
  map (map (map (map g))) (tab4 n o h w f) = tab4 n o h w (fun b q y x => g (f b q y x)).
Proof.
  unfold tab4, tab2. rewrite map_tab. apply tab_ext. intros b _. rewrite map_tab. apply tab_ext. intros q _. rewrite map_tab.
  apply tab_ext. intros y _. apply map_tab.
Qed.

Lemma tab4_entry {A} (d : A) n o h w f b q y x : (b < n)%nat -> (q < o)%nat -> (y < h)%nat -> (x < w)%nat ->
  entry4 d (tab4 n o h w f) b q y x = f b q y x.
Proof. intros. unfold entry4, tab4, tab2. rewrite !tab_nth by assumption. reflexivity. Qed.

Lemma add_bias4_tab n o h w f g : add_bias4 (tab4 n o h w f) (tab o g) = tab4 n o h w (fun b q y x => f b q y x + g q).
Proof.
  unfold add_bias4, tab4, tab2. rewrite map_tab. apply tab_ext. intros b _. rewrite map2_tab. apply tab_ext. intros q _.
  rewrite map_tab. apply tab_ext. intros y _. apply map_tab.
Qed.

Lemma tab4_ok {A} (P : A -> Prop) n o h w f : (forall b q y x, (b < n)%nat -> (q < o)%nat -> (y < h)%nat -> (x < w)%nat -> P (f b q y x)) ->
  tensor_ok P n o h w (tab4 n o h w f).
Proof.
  assert (FT : forall (B : Type) (Q : B -> Prop) m (g : nat -> B), (forall i, (i < m)%nat -> Q (g i)) -> Forall Q (tab m g)).
  { intros B Q m g Hg. unfold tab. rewrite Forall_map. apply Forall_forall. intros i Hi. apply in_seq in Hi. apply Hg. lia. }
  intros HP. split; [apply tab_length|]. apply FT. intros b Hb. split; [apply tab_length|]. apply FT. intros q Hq.
  split; [apply tab_length|]. apply FT. intros y Hy. split; [apply tab_length|]. apply FT. intros x Hx. apply HP; assumption.
Qed.

(** ** One call *)
Definition is_bipolar (m : mode) : bool := match m with Bipolar => true | Unipolar => false end.

Lemma fold_ok {A} (d : A) n o ho wo rows : (1 <= ho)%nat -> (1 <= wo)%nat -> length rows = (n * (ho * wo))%nat ->
  fold d n o (Z.of_nat ho, Z.of_nat wo) rows = Ok (fold_rows d n o ho wo rows).
Proof.
  intros H1 H2 L. unfold fold. rewrite !Nat2Z.id.
  destruct (Z.ltb_spec (Z.of_nat ho) 1); [lia|]. destruct (Z.ltb_spec (Z.of_nat wo) 1); [lia|]. cbn [orb].
  destruct (Z.eqb_spec (Z.of_nat (length rows)) (Z.of_nat n * (Z.of_nat ho * Z.of_nat wo))) as [_|E]; [reflexivity|].
  exfalso. apply E. rewrite L. lia.
Qed.

Lemma conv_step_tab c R R0 f1 f0 t (e : bool) N ho wo B x input : let pc := cv_pc c in pc_shape pc -> (1 <= B)%nat ->
  (R = B \/ R = 1%nat /\ forall b, f1 b = f1 0%nat) ->
  (i0_used pc = true -> R0 = B \/ R0 = 1%nat /\ forall b, f0 b = f0 0%nat) ->
  length input = N -> B = (N * (ho * wo))%nat -> (1 <= ho)%nat -> (1 <= wo)%nat ->
  conv2d_output_shape (natpair (size_hw input)) (natpair (cv_kernel c)) (natpair (cv_stride c)) (pad_arg (cv_pad c)) (natpair (cv_dil c))
    = (Z.of_nat ho, Z.of_nat wo) ->
  unfold_rows 0 (cv_kernel c) (cv_stride c) (cv_dil c) (map (constant_pad (cv_pad c) (if e then 0 else 1)) input) = Ok (tab2 B (pc_in pc) x) ->
  conv_step c {| cv_idx := pc_tab pc R R0 f1 f0 t; cv_even := e |} input =
  match pc_step pc (pc_tab pc R R0 f1 f0 t) (tab2 B (pc_in pc) x) with
  | Ok (s', o) => Ok ({| cv_idx := s'; cv_even := xorb (is_bipolar (pc_mode pc)) e |}, fold_rows 0 N (pc_out pc) ho wo o)
  | Err er => Err er
  end.
Proof.
  intros pc Hs HB HR HR0 HN EB Hho Hwo Esz Eun. unfold conv_step. cbn [cv_idx cv_even]. fold pc. rewrite Esz, Eun. cbn [bind].
  rewrite (pc_step_tab pc R R0 f1 f0 t B x Hs HB HR HR0).
  assert (Hlen : length (tab2 B (pc_in pc) x) = B) by apply tab_length. rewrite Hlen.
  destruct (Nat.eqb_spec B 0) as [E|_]; [lia|].
  rewrite forallb_len; [cbn [negb]|].
  2:{ apply Forall_forall. intros r Hr. unfold tab2, tab in Hr. apply in_map_iff in Hr. destruct Hr as (b & <- & _). apply tab_length. }
  unfold pc_tab. cbn [pc_i1 pc_i0 pc_brdx].
  rewrite wbits_tab by exact Hs.
  assert (E1 : expand B (tab3 R (pc_out pc) (pc_in pc) f1) = tab3 B (pc_out pc) (pc_in pc) f1).
  { unfold tab3. apply expand_tab. destruct HR as [HR|[HR HR']]; [left; exact HR|right; split; [exact HR|]].
    intros b. rewrite HR'. reflexivity. }
  assert (E2 : expand B (tab3 R (pc_out pc) (pc_in pc) (fun b o i => bsgen_bit (entry2 (pc_weight pc) o i) (pc_rng pc) (f1 b o i))) =
               tab3 B (pc_out pc) (pc_in pc) (fun b o i => bsgen_bit (entry2 (pc_weight pc) o i) (pc_rng pc) (f1 b o i))).
  { unfold tab3. apply expand_tab. destruct HR as [HR|[HR HR']]; [left; exact HR|right; split; [exact HR|]].
    intros b. rewrite HR'. reflexivity. }
  rewrite E1, E2. clear E1 E2.
  rewrite bcast_same by (rewrite Hlen; symmetry; apply tab_length). cbn [bind].
  rewrite matmul_tab, !map_map_tab2, HN.
  rewrite fold_ok by (try assumption; unfold tab2; rewrite tab_length; exact EB). cbn [bind].
  assert (Ebr : match pc_bias pc with None => match pc_bias pc with None => [] | Some _ => repeat t (pc_out pc) end
     | Some _ => map (fun i => i + 1) match pc_bias pc with None => [] | Some _ => repeat t (pc_out pc) end end =
     match pc_bias pc with None => [] | Some _ => repeat (t + 1) (pc_out pc) end).
  { destruct (pc_bias pc); [|reflexivity]. rewrite !repeat_tab, map_tab. reflexivity. }
  rewrite Ebr. clear Ebr.
  assert (Ea : add_rows (tab3 B (pc_out pc) (pc_in pc) f1) (if pc_wtc pc then tab2 B (pc_in pc) (fun _ _ => 1) else tab2 B (pc_in pc) x)
     = tab3 B (pc_out pc) (pc_in pc) (fun b o i => f1 b o i + (if pc_wtc pc then 1 else x b i))).
  { destruct (pc_wtc pc); apply add_rows_tab. }
  rewrite Ea. clear Ea.
  subst B. rewrite fold_rows_tab.
  set (L := (ho * wo)%nat).
  set (P := fun b o => zsum (tab (pc_in pc) (fun i => x b i * bsgen_bit (entry2 (pc_weight pc) o i) (pc_rng pc) (f1 b o i)))).
  change (fun (b q y x0 : nat) => zsum (tab (pc_in pc) (fun i : nat => x (b * L + (y * wo + x0))%nat i *
      bsgen_bit (entry2 (pc_weight pc) q i) (pc_rng pc) (f1 (b * L + (y * wo + x0))%nat q i))))
    with (fun b q y x0 => P (b * L + (y * wo + x0))%nat q).
  match goal with |- context [match pc_bias pc with None => tab4 _ _ _ _ ?g | Some b => add_bias4 _ _ end] =>
    assert (Eb : match pc_bias pc with
       | None => tab4 N (pc_out pc) ho wo g
       | Some b => add_bias4 (tab4 N (pc_out pc) ho wo g)
           (map2 (fun v i => bsgen_bit v (pc_rng pc) i) b match pc_bias pc with None => [] | Some _ => repeat t (pc_out pc) end)
       end = tab4 N (pc_out pc) ho wo (fun b q y x0 => P (b * L + (y * wo + x0))%nat q + pc_bbit pc q t)) end.
  { unfold pc_bbit. destruct Hs as (_ & _ & Hb). destruct (pc_bias pc) as [bs|].
    - rewrite (tab_of bs 0) at 1. rewrite Hb, repeat_tab, map2_tab, add_bias4_tab. reflexivity.
    - apply tab4_ext. intros. lia. }
  rewrite Eb. clear Eb.
  rewrite !fold_rows_tab. fold L.
  unfold i0_used in *. unfold pc_prod. fold (is_bipolar (pc_mode pc)).
  destruct (pc_mode pc) eqn:Em.
  - apply (f_equal Ok). apply (f_equal2 pair); [reflexivity|]. apply tab4_ext. intros b q y x0 _ _ _ _.
    unfold P. f_equal. f_equal. apply tab_ext. intros. lia.
  - destruct (pc_wtc pc) eqn:Ew; cbn [negb] in *.
    + rewrite neg3_tab, matmul_tab. rewrite fold_ok by (try assumption; unfold tab2; rewrite tab_length; reflexivity). cbn [bind].
      apply (f_equal Ok). apply (f_equal2 pair); [reflexivity|].
      rewrite fold_rows_tab. unfold add4. rewrite map2_tab4. apply tab4_ext. intros b q y x0 _ _ _ _.
      unfold P. rewrite zsum_tab_add. fold L. lia.
    + specialize (HR0 eq_refl). rewrite wbits_tab, neg3_tab by exact Hs.
      assert (E1 : expand (N * L) (tab3 R0 (pc_out pc) (pc_in pc) f0) = tab3 (N * L) (pc_out pc) (pc_in pc) f0).
      { unfold tab3. apply expand_tab. destruct HR0 as [HR'|[HR' HR'']]; [left; exact HR'|right; split; [exact HR'|]].
        intros b. rewrite HR''. reflexivity. }
      assert (E2 : expand (N * L) (tab3 R0 (pc_out pc) (pc_in pc) (fun b o i => 1 - bsgen_bit (entry2 (pc_weight pc) o i) (pc_rng pc) (f0 b o i))) =
                   tab3 (N * L) (pc_out pc) (pc_in pc) (fun b o i => 1 - bsgen_bit (entry2 (pc_weight pc) o i) (pc_rng pc) (f0 b o i))).
      { unfold tab3. apply expand_tab. destruct HR0 as [HR'|[HR' HR'']]; [left; exact HR'|right; split; [exact HR'|]].
        intros b. rewrite HR''. reflexivity. }
      rewrite E1, E2, matmul_tab. rewrite fold_ok by (try assumption; unfold tab2; rewrite tab_length; reflexivity). cbn [bind].
      apply (f_equal Ok). apply (f_equal2 pair).
      * rewrite add_rows_tab. reflexivity.
      * rewrite fold_rows_tab. unfold add4. rewrite map2_tab4. apply tab4_ext. intros b q y x0 _ _ _ _. unfold P. rewrite zsum_tab_add. fold L. lia.
Qed.

(** ** Histories *)

(** A layer with a number as padding whose kernel fits on images of H rows and W columns, with ho * wo positions. *)
Definition conv_geom (c : conv_cfg) (p H W ho wo : nat) : Prop :=
  pc_shape (cv_pc c) /\ pc_in (cv_pc c) = (cv_chan c * (fst (cv_kernel c) * snd (cv_kernel c)))%nat /\
  cv_pad c = PadNum p /\
  (1 <= cv_chan c)%nat /\ (1 <= H)%nat /\ (1 <= fst (cv_kernel c))%nat /\ (1 <= snd (cv_kernel c))%nat /\
  (1 <= fst (cv_stride c))%nat /\ (1 <= snd (cv_stride c))%nat /\ (1 <= ho)%nat /\ (1 <= wo)%nat /\
  positions (Z.of_nat (H + 2 * p)) (Z.of_nat (fst (cv_kernel c))) (Z.of_nat (fst (cv_stride c))) (Z.of_nat (fst (cv_dil c))) = Z.of_nat ho /\
  positions (Z.of_nat (W + 2 * p)) (Z.of_nat (snd (cv_kernel c))) (Z.of_nat (snd (cv_stride c))) (Z.of_nat (snd (cv_dil c))) = Z.of_nat wo.

Lemma positions_axis n m k s d o : (1 <= s)%nat -> (1 <= k)%nat -> (1 <= o)%nat -> n = m ->
  positions (Z.of_nat m) (Z.of_nat k) (Z.of_nat s) (Z.of_nat d) = Z.of_nat o -> unfold_axis n k s d = Z.of_nat o.
Proof.
  intros Hs Hk Ho -> E. rewrite positions_eq in E by nia. unfold unfold_axis. lia.
Qed.

Lemma positions_shape h k s p d o : (1 <= s)%nat -> (1 <= k)%nat -> (1 <= o)%nat ->
  positions (Z.of_nat (h + 2 * p)) (Z.of_nat k) (Z.of_nat s) (Z.of_nat d) = Z.of_nat o ->
  conv_axis (Z.of_nat h) (Z.of_nat k) (Z.of_nat s) (Z.of_nat p) (Z.of_nat p) (Z.of_nat d) = Z.of_nat o.
Proof.
  intros Hs Hk Ho E. rewrite positions_eq in E by nia. rewrite conv_axis_eq by lia.
  replace (Z.of_nat h + Z.of_nat p + Z.of_nat p) with (Z.of_nat (h + 2 * p)) by lia. lia.
Qed.

Lemma geom_shape c p N H W ho wo (input : list (image Z)) : conv_geom c p H W ho wo -> (1 <= N)%nat ->
  tensor_ok bit N (cv_chan c) H W input ->
  conv2d_output_shape (natpair (size_hw input)) (natpair (cv_kernel c)) (natpair (cv_stride c)) (pad_arg (cv_pad c)) (natpair (cv_dil c))
    = (Z.of_nat ho, Z.of_nat wo).
Proof.
  intros (_ & _ & Ep & HC & HH & K1 & K2 & S1 & S2 & O1 & O2 & P1 & P2) HN T.
  rewrite (tensor_size bit N (cv_chan c) H W input T HN HC HH). rewrite Ep. unfold conv2d_output_shape, natpair, pad_arg. cbn [num2tuple pad_tuple fst snd].
  f_equal; apply positions_shape; assumption.
Qed.

Definition pad_of (p : nat) (v : Z) (input : list (image Z)) : list (image Z) := pad_all p p p p v input.
Definition conv_rows_at (c : conv_cfg) (p ho wo : nat) (v : Z) (input : list (image Z)) : list (list Z) :=
  rows_of 0 (cv_kernel c) (cv_stride c) (cv_dil c) ho wo (pad_of p v input).

Lemma geom_unfold c p N H W ho wo v (input : list (image Z)) : conv_geom c p H W ho wo -> (1 <= N)%nat -> bit v ->
  tensor_ok bit N (cv_chan c) H W input ->
  unfold_rows 0 (cv_kernel c) (cv_stride c) (cv_dil c) (map (constant_pad (cv_pad c) v) input) = Ok (conv_rows_at c p ho wo v input).
Proof.
  intros (_ & _ & Ep & HC & HH & K1 & K2 & S1 & S2 & O1 & O2 & P1 & P2) HN Hv T.
  assert (Em : map (constant_pad (cv_pad c) v) input = pad_of p v input) by (rewrite Ep; reflexivity). rewrite Em.
  pose proof (pad_all_tensor bit p p p p v N (cv_chan c) H W input T Hv HH) as T'.
  unfold unfold_rows. fold (pad_of p v input) in T'.
  rewrite (tensor_size bit N (cv_chan c) _ _ _ T' HN HC ltac:(lia)). cbn [fst snd].
  rewrite (positions_axis _ (H + 2 * p) _ _ _ ho), (positions_axis _ (W + 2 * p) _ _ _ wo) by (try assumption; lia).
  destruct (Z.ltb_spec (Z.of_nat ho) 1); [lia|]. destruct (Z.ltb_spec (Z.of_nat wo) 1); [lia|]. cbn [orb].
  rewrite !Nat2Z.id. reflexivity.
Qed.

Lemma conv_rows_batch c p N H W ho wo v input : conv_geom c p H W ho wo -> bit v -> tensor_ok bit N (cv_chan c) H W input ->
  batch_ok (N * (ho * wo)) (pc_in (cv_pc c)) (conv_rows_at c p ho wo v input).
Proof.
  intros (_ & Ei & _ & HC & HH & _) Hv T.
  pose proof (pad_all_tensor bit p p p p v N (cv_chan c) H W input T Hv HH) as T'.
  split.
  - unfold conv_rows_at. rewrite rows_of_length. f_equal. apply T'.
  - rewrite Ei. apply (rows_of_all bit 0); [|left; reflexivity]. apply (tensor_all bit N _ _ _ _ T').
Qed.

Lemma conv_rows_entry c p N H W ho wo v input n y x k i j : conv_geom c p H W ho wo -> bit v ->
  tensor_ok bit N (cv_chan c) H W input -> (n < N)%nat -> (y < ho)%nat -> (x < wo)%nat ->
  (k < cv_chan c)%nat -> (i < fst (cv_kernel c))%nat -> (j < snd (cv_kernel c))%nat ->
  entry2 (conv_rows_at c p ho wo v input) (n * (ho * wo) + (y * wo + x))
         (k * (fst (cv_kernel c) * snd (cv_kernel c)) + (i * snd (cv_kernel c) + j)) =
  surrounded v H W input n k (Z.of_nat (y * fst (cv_stride c) + i * fst (cv_dil c)) - Z.of_nat p)
                           (Z.of_nat (x * snd (cv_stride c) + j * snd (cv_dil c)) - Z.of_nat p).
Proof.
  intros G Hv T Hn Hy Hx Hk Hi Hj. pose proof (conv_rows_batch c p N H W ho wo v input G Hv T) as [LB FB].
  destruct G as (_ & Ei & Ep & HC & HH & K1 & K2 & S1 & S2 & O1 & O2 & P1 & P2).
  pose proof (positions_axis (p + H + p) (H + 2 * p) _ _ _ ho S1 K1 O1 ltac:(lia) P1) as A1.
  pose proof (positions_axis (p + W + p) (W + 2 * p) _ _ _ wo S2 K2 O2 ltac:(lia) P2) as A2.
  pose proof (window_entry bit p p p p v (cv_kernel c) (cv_stride c) (cv_dil c) N (cv_chan c) H W input n y x k i j T HH S1 S2 Hn Hk Hi Hj) as E.
  cbn zeta in E. rewrite A1, A2, !Nat2Z.id in E. rewrite <- (E ltac:(lia) ltac:(lia)). clear E.
  unfold entry2, conv_rows_at, pad_of.
  assert (LN : (n < length (pad_all p p p p v input))%nat) by (unfold pad_all; rewrite map_length; destruct T as [-> _]; exact Hn).
  rewrite !rows_of_nth by assumption.
  assert (LC : length (nth n (pad_all p p p p v input) []) = cv_chan c).
  { pose proof (pad_all_tensor bit p p p p v N (cv_chan c) H W input T Hv HH) as [L1 F1]. apply (Forall_nth_lt _ _ n [] F1). exact LN. }
  rewrite window_row_nth by (try rewrite LC; assumption).
  assert (Hr : (k * (fst (cv_kernel c) * snd (cv_kernel c)) + (i * snd (cv_kernel c) + j) < length (window_row v (cv_kernel c) (cv_stride c) (cv_dil c) (nth n (pad_all p p p p v input) []) y x))%nat).
  { rewrite (window_row_length _ _ _ _ _ _ _ _ LC). apply fold_index; assumption. }
  rewrite window_row_nth by (try rewrite LC; assumption).
  apply nth_indep.
  pose proof (pad_all_tensor bit p p p p v N (cv_chan c) H W input T Hv HH) as T'.
  destruct (tensor_chan bit _ _ _ _ _ n k T' ltac:(lia) Hk) as [L1 F1].
  assert (Hyi : (y * fst (cv_stride c) + i * fst (cv_dil c) < p + H + p)%nat) by (apply (unfold_axis_in _ (fst (cv_kernel c)) _ _ y i); lia).
  rewrite (Forall_nth_lt _ _ _ [] F1) by lia.
  apply (unfold_axis_in _ (snd (cv_kernel c)) _ _ x j); lia.
Qed.

(** The history the counting layer sees. *)
Definition conv_rows (c : conv_cfg) (p ho wo : nat) (h : list (list (image Z))) : list (list (list Z)) :=
  tab (length h) (fun t => conv_rows_at c p ho wo (border_bit (pc_mode (cv_pc c)) t) (nth t h [])).

Lemma border_bit_bit m t : bit (border_bit m t).
Proof. unfold border_bit. destruct m; [left; reflexivity|]. pose proof (Z.mod_pos_bound (Z.of_nat t) 2 ltac:(lia)). unfold bit. lia. Qed.

Lemma conv_rows_batches c p N H W ho wo h : conv_geom c p H W ho wo -> Forall (tensor_ok bit N (cv_chan c) H W) h ->
  Forall (batch_ok (N * (ho * wo)) (pc_in (cv_pc c))) (conv_rows c p ho wo h).
Proof.
  intros G Hh. unfold conv_rows, tab. rewrite Forall_map. apply Forall_forall. intros t Ht. apply in_seq in Ht.
  apply (conv_rows_batch c p N H W); [exact G|apply border_bit_bit|]. apply (Forall_nth_lt _ h t [] Hh). lia.
Qed.

Lemma conv_rows_snoc c p ho wo h x : conv_rows c p ho wo (h ++ [x]) =
  conv_rows c p ho wo h ++ [conv_rows_at c p ho wo (border_bit (pc_mode (cv_pc c)) (length h)) x].
Proof.
  unfold conv_rows. rewrite app_length. cbn [length]. rewrite Nat.add_1_r, tab_S. f_equal.
  - apply tab_ext. intros t Ht. rewrite app_nth1 by exact Ht. reflexivity.
  - rewrite app_nth2, Nat.sub_diag by lia. reflexivity.
Qed.

Definition even_after (m : mode) (t : nat) : bool := match m with Unipolar => true | Bipolar => Nat.even t end.

Lemma even_border m t : (if even_after m t then 0 else 1) = border_bit m t.
Proof.
  unfold even_after, border_bit. destruct m; [reflexivity|]. rewrite Zmod_even, <- Z.negb_odd.
  destruct (Nat.even t) eqn:E; symmetry.
  - apply Nat.even_spec in E. destruct E as [k ->]. rewrite Z.negb_odd. replace (Z.of_nat (2 * k)) with (2 * Z.of_nat k) by lia.
    rewrite Z.even_mul. reflexivity.
  - rewrite <- Nat.negb_odd in E. apply negb_false_iff in E. apply Nat.odd_spec in E. destruct E as [k ->].
    replace (Z.of_nat (2 * k + 1)) with (1 + 2 * Z.of_nat k) by lia. rewrite Z.odd_add_mul_2. reflexivity.
Qed.

Lemma even_after_S m t : xorb (is_bipolar m) (even_after m t) = even_after m (S t).
Proof. destruct m; [reflexivity|]. cbn [is_bipolar even_after xorb]. rewrite Nat.even_succ, <- Nat.negb_even. reflexivity. Qed.

Lemma rows_pos N ho wo : (1 <= N)%nat -> (1 <= ho)%nat -> (1 <= wo)%nat -> (1 <= N * (ho * wo))%nat.
Proof. nia. Qed.

Theorem conv_run : forall c p N H W ho wo h, conv_geom c p H W ho wo -> (1 <= N)%nat -> Forall (tensor_ok bit N (cv_chan c) H W) h ->
  exists s os, run_r (pc_step (cv_pc c)) (pc_init (cv_pc c)) (conv_rows c p ho wo h) = Ok (s, os) /\
  run_r (conv_step c) (conv_init c) h =
  Ok ({| cv_idx := s; cv_even := even_after (pc_mode (cv_pc c)) (length h) |}, map (fold_rows 0 N (pc_out (cv_pc c)) ho wo) os).
Proof.
  intros c p N H W ho wo h G HN. induction h as [|x h IH] using rev_ind; intros Hh.
  - exists (pc_init (cv_pc c)), []. split; [reflexivity|]. cbn. unfold conv_init, even_after. destruct (pc_mode (cv_pc c)); reflexivity.
  - pose proof (conv_rows_batches c p N H W ho wo _ G Hh) as Hb. rewrite conv_rows_snoc in Hb |- *.
    apply Forall_app in Hh. destruct Hh as [Hh Hx]. pose proof (Forall_inv Hx) as Tx. clear Hx.
    destruct (IH Hh) as (s & os & E1 & E2). clear IH.
    assert (Gs := G). destruct Gs as (Hs & _ & _ & _ & _ & _ & _ & _ & _ & O1 & O2 & _).
    pose proof (rows_pos N ho wo HN O1 O2) as HB.
    pose proof (pc_run (cv_pc c) (N * (ho * wo)) _ Hs HB (conv_rows_batches c p N H W ho wo h G Hh)) as R1.
    rewrite E1 in R1.
    assert (Es : s = pc_tab (cv_pc c) (rows_after (cv_pc c) (N * (ho * wo)) (conv_rows c p ho wo h))
        (if i0_used (cv_pc c) then rows_after (cv_pc c) (N * (ho * wo)) (conv_rows c p ho wo h) else 1)
        (fun b _ i => pc_idx1 (cv_pc c) (conv_rows c p ho wo h) b i) (fun b _ i => pc_idx0 (cv_pc c) (conv_rows c p ho wo h) b i)
        (zlen (conv_rows c p ho wo h))).
    { apply (f_equal (fun r => match r with Ok p => fst p | Err _ => s end)) in R1. exact R1. }
    set (g := conv_rows c p ho wo h) in *.
    rewrite (run_r_snoc (pc_step (cv_pc c))), E1, (run_r_snoc (conv_step c)), E2.
    set (v := border_bit (pc_mode (cv_pc c)) (length h)) in *.
    pose proof (conv_rows_batch c p N H W ho wo v x G (border_bit_bit _ _) Tx) as Bx.
    pose proof (batch_tab _ _ _ Bx) as Ex.
    pose proof (geom_unfold c p N H W ho wo v x G HN (border_bit_bit _ _) Tx) as Eu. rewrite Ex in Eu.
    assert (Ev : v = if even_after (pc_mode (cv_pc c)) (length h) then 0 else 1) by (symmetry; apply even_border).
    rewrite Ev in Eu at 1.
    pose proof (conv_step_tab c (rows_after (cv_pc c) (N * (ho * wo)) g) (if i0_used (cv_pc c) then rows_after (cv_pc c) (N * (ho * wo)) g else 1)
      (fun b _ i => pc_idx1 (cv_pc c) g b i) (fun b _ i => pc_idx0 (cv_pc c) g b i) (zlen g) (even_after (pc_mode (cv_pc c)) (length h))
      N ho wo (N * (ho * wo)) (entry2 (conv_rows_at c p ho wo v x)) x) as St.
    cbn zeta in St. rewrite <- Ex, <- Es in St.
    rewrite St; clear St.
    + pose proof (pc_run (cv_pc c) (N * (ho * wo)) _ Hs HB Hb) as R2. rewrite run_r_snoc, E1 in R2.
      destruct (pc_step (cv_pc c) s (conv_rows_at c p ho wo v x)) as [[s2 o2]|e]; [|discriminate].
      exists s2, (os ++ [o2]). split; [reflexivity|]. rewrite app_length. cbn [length]. rewrite Nat.add_1_r, even_after_S, map_app. reflexivity.
    + exact Hs.
    + exact HB.
    + unfold rows_after. destruct g; [right|left; reflexivity]. split; [reflexivity|]. intros b. unfold pc_idx1. cbn. destruct (pc_wtc (cv_pc c)); reflexivity.
    + intros E. rewrite E. unfold rows_after. destruct g; [right|left; reflexivity]. split; [reflexivity|]. intros b. unfold pc_idx0. cbn. destruct (i0_used (cv_pc c)); reflexivity.
    + apply Tx.
    + reflexivity.
    + exact O1.
    + exact O2.
    + apply (geom_shape c p N H W); assumption.
    + rewrite <- Ex in Eu. exact Eu.
Qed.

(** ** Statements about FSUConv2dPC *)
Definition row_index (ho wo n y x : nat) : nat := (n * (ho * wo) + (y * wo + x))%nat.
Definition tap_index (kh kw c i j : nat) : nat := (c * (kh * kw) + (i * kw + j))%nat.

Lemma fold_tab_map c B ho wo N (f : nat -> nat -> nat -> Z) T : B = (N * (ho * wo))%nat ->
  map (fold_rows 0 N (pc_out (cv_pc c)) ho wo) (tab T (fun t => tab2 B (pc_out (cv_pc c)) (f t))) =
  tab T (fun t => tab4 N (pc_out (cv_pc c)) ho wo (fun b q y x => f t (row_index ho wo b y x) q)).
Proof. intros ->. rewrite map_tab. apply tab_ext. intros t _. apply fold_rows_tab. Qed.

Lemma conv_run_tab c p N H W ho wo h : conv_geom c p H W ho wo -> (1 <= N)%nat -> Forall (tensor_ok bit N (cv_chan c) H W) h ->
  exists s, run_r (conv_step c) (conv_init c) h =
  Ok (s, tab (length h) (fun t => tab4 N (pc_out (cv_pc c)) ho wo (fun b q y x =>
           pc_out_at (cv_pc c) (conv_rows c p ho wo h) t (row_index ho wo b y x) q))).
Proof.
  intros G HN Hh. destruct (conv_run c p N H W ho wo h G HN Hh) as (s & os & E1 & E2).
  assert (Gs := G). destruct Gs as (Hs & _ & _ & _ & _ & _ & _ & _ & _ & O1 & O2 & _).
  pose proof (pc_run (cv_pc c) (N * (ho * wo)) _ Hs (rows_pos N ho wo HN O1 O2) (conv_rows_batches c p N H W ho wo h G Hh)) as R.
  rewrite E1 in R. apply (f_equal (fun r => match r with Ok p => snd p | Err _ => os end)) in R. cbn [snd] in R.
  rewrite E2, R. eexists. rewrite fold_tab_map by reflexivity.
  assert (L : length (conv_rows c p ho wo h) = length h) by (unfold conv_rows; apply tab_length). rewrite L. reflexivity.
Qed.

Theorem conv_windows : forall c p N H W ho wo h, conv_geom c p H W ho wo -> (1 <= N)%nat ->
  Forall (tensor_ok bit N (cv_chan c) H W) h ->
  exists g ys os,
    length g = length h /\ Forall (batch_ok (N * (ho * wo)) (pc_in (cv_pc c))) g /\
    (forall t n y x k i j, (t < length h)%nat -> (n < N)%nat -> (y < ho)%nat -> (x < wo)%nat ->
       (k < cv_chan c)%nat -> (i < fst (cv_kernel c))%nat -> (j < snd (cv_kernel c))%nat ->
       entry2 (nth t g []) (row_index ho wo n y x) (tap_index (fst (cv_kernel c)) (snd (cv_kernel c)) k i j) =
       surrounded (border_bit (pc_mode (cv_pc c)) t) H W (nth t h []) n k
         (Z.of_nat (y * fst (cv_stride c) + i * fst (cv_dil c)) - Z.of_nat p)
         (Z.of_nat (x * snd (cv_stride c) + j * snd (cv_dil c)) - Z.of_nat p)) /\
    outputs (run_r (pc_step (cv_pc c)) (pc_init (cv_pc c)) g) = Some ys /\
    outputs (run_r (conv_step c) (conv_init c) h) = Some os /\ length os = length h /\
    forall t, (t < length h)%nat -> tensor_ok (fun z => 0 <= z <= flin_entry (cv_pc c)) N (pc_out (cv_pc c)) ho wo (nth t os []) /\
      forall n o y x, (n < N)%nat -> (o < pc_out (cv_pc c))%nat -> (y < ho)%nat -> (x < wo)%nat ->
        entry4 0 (nth t os []) n o y x = entry2 (nth t ys []) (row_index ho wo n y x) o.
Proof.
  intros c p N H W ho wo h G HN Hh.
  destruct (conv_run_tab c p N H W ho wo h G HN Hh) as (s & E).
  assert (Gs := G). destruct Gs as (Hs & _ & _ & _ & _ & _ & _ & _ & _ & O1 & O2 & _).
  pose proof (conv_rows_batches c p N H W ho wo h G Hh) as Hb.
  pose proof (pc_run (cv_pc c) (N * (ho * wo)) _ Hs (rows_pos N ho wo HN O1 O2) Hb) as R.
  assert (L : length (conv_rows c p ho wo h) = length h) by (unfold conv_rows; apply tab_length). rewrite L in R.
  exists (conv_rows c p ho wo h). eexists. eexists.
  split; [exact L|]. split; [exact Hb|]. split; [|split; [|split; [|split]]].
  - intros t n y x k i j Ht Hn Hy Hx Hk Hi Hj. unfold conv_rows. rewrite tab_nth by exact Ht.
    unfold row_index, tap_index. apply (conv_rows_entry c p N H W ho wo); try assumption; [apply border_bit_bit|].
    apply (Forall_nth_lt _ h t [] Hh Ht).
  - rewrite R. reflexivity.
  - rewrite E. reflexivity.
  - apply tab_length.
  - intros t Ht. rewrite !tab_nth by exact Ht. split.
    + apply tab4_ok. intros b q y x Hb' Hq Hy Hx. apply (pc_out_range (cv_pc c) (N * (ho * wo))); [exact Hb|lia|apply fold_index; assumption].
    + intros n o y x Hn Ho Hy Hx. rewrite tab4_entry, tab2_entry by (try assumption; apply fold_index; assumption). reflexivity.
Qed.


Lemma zsum_tab_prod a b (f : nat -> Z) : zsum (tab (a * b) f) = zsum (tab a (fun i => zsum (tab b (fun j => f (i * b + j)%nat)))).
Proof.
  induction a as [|a IH]; [reflexivity|]. rewrite tab_S, zsum_app. cbn [zsum]. rewrite <- IH, Z.add_0_r. clear IH.
  replace (S a * b)%nat with (a * b + b)%nat by lia. generalize (a * b)%nat. intros n.
  induction b as [|b IHb]; [rewrite Nat.add_0_r; cbn; lia|]. rewrite Nat.add_succ_r, !tab_S, !zsum_app, IHb. cbn [zsum]. lia.
Qed.

Lemma sum_taps_tab C kh kw f : zsum (tab (C * (kh * kw)) f) = sum_taps C kh kw (fun c i j => f (tap_index kh kw c i j)).
Proof.
  rewrite zsum_tab_prod. unfold sum_taps. f_equal. apply tab_ext. intros c _. rewrite zsum_tab_prod. reflexivity.
Qed.

(** The stream seen by tap (k, i, j) of the window (n, y, x). *)
Definition tap_stream (c : conv_cfg) (p H W : nat) (h : list (list (image Z))) (n y x k i j : nat) : list Z :=
  map (fun t => surrounded (border_bit (pc_mode (cv_pc c)) t) H W (nth t h []) n k
     (Z.of_nat (y * fst (cv_stride c) + i * fst (cv_dil c)) - Z.of_nat p)
     (Z.of_nat (x * snd (cv_stride c) + j * snd (cv_dil c)) - Z.of_nat p)) (seq 0 (length h)).

Lemma lane_tap c p N H W ho wo h n y x k i j : conv_geom c p H W ho wo -> Forall (tensor_ok bit N (cv_chan c) H W) h ->
  (n < N)%nat -> (y < ho)%nat -> (x < wo)%nat ->
  (k < cv_chan c)%nat -> (i < fst (cv_kernel c))%nat -> (j < snd (cv_kernel c))%nat ->
  lane (conv_rows c p ho wo h) (row_index ho wo n y x) (tap_index (fst (cv_kernel c)) (snd (cv_kernel c)) k i j) = tap_stream c p H W h n y x k i j.
Proof.
  intros G Hh Hn Hy Hx Hk Hi Hj. unfold lane, conv_rows, tap_stream. rewrite map_tab. apply tab_ext. intros t Ht.
  apply (conv_rows_entry c p N H W ho wo); try assumption; [apply border_bit_bit|]. apply (Forall_nth_lt _ h t [] Hh Ht).
Qed.

Lemma sum_taps_ext C kh kw f g : (forall c i j, (c < C)%nat -> (i < kh)%nat -> (j < kw)%nat -> f c i j = g c i j) -> sum_taps C kh kw f = sum_taps C kh kw g.
Proof.
  intros E. unfold sum_taps. f_equal. apply tab_ext. intros c Hc. f_equal. apply tab_ext. intros i Hi. f_equal. apply tab_ext. intros j Hj. apply E; assumption.
Qed.

Theorem conv_rate : forall c p N H W ho wo h, conv_geom c p H W ho wo -> rng_ok (cv_pc c) -> pc_wtc (cv_pc c) = false -> (1 <= N)%nat ->
  Forall (tensor_ok bit N (cv_chan c) H W) h ->
  exists os, outputs (run_r (conv_step c) (conv_init c) h) = Some os /\ length os = length h /\
    forall t n o y x, (t < length h)%nat -> (n < N)%nat -> (o < pc_out (cv_pc c))%nat -> (y < ho)%nat -> (x < wo)%nat ->
      entry4 0 (nth t os []) n o y x =
      sum_taps (cv_chan c) (fst (cv_kernel c)) (snd (cv_kernel c)) (fun k i j =>
        nth t (outs (fsumul_static_step (pc_mode (cv_pc c))
                       (entry2 (pc_weight (cv_pc c)) o (tap_index (fst (cv_kernel c)) (snd (cv_kernel c)) k i j)) (pc_rng (cv_pc c)))
                    fsumul_static_init (tap_stream c p H W h n y x k i j)) 0)
      + match pc_bias (cv_pc c) with None => 0 | Some bs => bsgen_bit (nth o bs 0) (pc_rng (cv_pc c)) (Z.of_nat t) end.
Proof.
  intros c p N H W ho wo h G Hr Hw HN Hh. destruct (conv_run_tab c p N H W ho wo h G HN Hh) as (s & E). rewrite E.
  eexists. split; [reflexivity|]. split; [apply tab_length|]. intros t n o y x Ht Hn Ho Hy Hx.
  rewrite tab_nth by exact Ht. rewrite tab4_entry by assumption. unfold pc_out_at. f_equal.
  pose proof (conv_rows_batches c p N H W ho wo h G Hh) as Hb.
  assert (L : length (conv_rows c p ho wo h) = length h) by (unfold conv_rows; apply tab_length).
  assert (Gi := G). destruct Gi as (_ & Ei & _). rewrite Ei, sum_taps_tab. apply sum_taps_ext. intros k i j Hk Hi Hj.
  rewrite (pc_prod_rate (cv_pc c) (N * (ho * wo))); [|exact Hw|exact Hr|exact Hb|lia|apply fold_index; assumption|rewrite Ei; apply fold_index; assumption].
  rewrite (lane_tap c p N H W ho wo); [reflexivity|assumption..].
Qed.

Theorem conv_temporal : forall c p N H W ho wo h, conv_geom c p H W ho wo -> pc_wtc (cv_pc c) = true -> (1 <= N)%nat ->
  Forall (tensor_ok bit N (cv_chan c) H W) h ->
  exists os, outputs (run_r (conv_step c) (conv_init c) h) = Some os /\ length os = length h /\
    forall t n o y x, (t < length h)%nat -> (n < N)%nat -> (o < pc_out (cv_pc c))%nat -> (y < ho)%nat -> (x < wo)%nat ->
      entry4 0 (nth t os []) n o y x =
      sum_taps (cv_chan c) (fst (cv_kernel c)) (snd (cv_kernel c)) (fun k i j =>
        product_bit (pc_mode (cv_pc c)) (nth t (tap_stream c p H W h n y x k i j) 0)
          (bsgen_bit (entry2 (pc_weight (cv_pc c)) o (tap_index (fst (cv_kernel c)) (snd (cv_kernel c)) k i j)) (pc_rng (cv_pc c)) (Z.of_nat t)))
      + match pc_bias (cv_pc c) with None => 0 | Some bs => bsgen_bit (nth o bs 0) (pc_rng (cv_pc c)) (Z.of_nat t) end.
Proof.
  intros c p N H W ho wo h G Hw HN Hh. destruct (conv_run_tab c p N H W ho wo h G HN Hh) as (s & E). rewrite E.
  eexists. split; [reflexivity|]. split; [apply tab_length|]. intros t n o y x Ht Hn Ho Hy Hx.
  rewrite tab_nth by exact Ht. rewrite tab4_entry by assumption. unfold pc_out_at. f_equal.
  pose proof (conv_rows_batches c p N H W ho wo h G Hh) as Hb.
  assert (L : length (conv_rows c p ho wo h) = length h) by (unfold conv_rows; apply tab_length).
  assert (Gi := G). destruct Gi as (_ & Ei & _). rewrite Ei, sum_taps_tab. apply sum_taps_ext. intros k i j Hk Hi Hj.
  rewrite (pc_prod_temporal (cv_pc c) (N * (ho * wo))); [|exact Hw|exact Hb|lia|apply fold_index; assumption|rewrite Ei; apply fold_index; assumption].
  rewrite <- (lane_tap c p N H W ho wo) by assumption. rewrite lane_nth. reflexivity.
Qed.

(** The stream of a tap outside the image: 0,1,0,1,... in bipolar mode (walk 0 or -1), all zero in unipolar mode. *)
Theorem border_stream : forall c p H W h n y x k i j,
  let yy := Z.of_nat (y * fst (cv_stride c) + i * fst (cv_dil c)) - Z.of_nat p in
  let xx := Z.of_nat (x * snd (cv_stride c) + j * snd (cv_dil c)) - Z.of_nat p in
  (yy < 0 \/ Z.of_nat H <= yy \/ xx < 0 \/ Z.of_nat W <= xx) ->
  tap_stream c p H W h n y x k i j =
    match pc_mode (cv_pc c) with Unipolar => repeat 0 (length h) | Bipolar => alternating (length h) end.
Proof.
  intros c p H W h n y x k i j yy xx Hout. unfold tap_stream. fold yy xx.
  assert (E : forall (v : Z) t, surrounded v H W t n k yy xx = v).
  { intros v t. unfold surrounded.
    destruct ((0 <=? yy) && (yy <? Z.of_nat H) && (0 <=? xx) && (xx <? Z.of_nat W)) eqn:B; [lia|reflexivity]. }
  destruct (pc_mode (cv_pc c)).
  - rewrite repeat_tab. apply tab_ext. intros t _. apply E.
  - unfold alternating. apply tab_ext. intros t _. apply E.
Qed.

Theorem alternating_walk : forall n, walk (alternating n) = - (Z.of_nat n mod 2).
Proof.
  induction n as [|n IH]; [reflexivity|]. unfold alternating in *. rewrite seq_S, map_app. cbn [map Nat.add].
  assert (Bn : bit (Z.of_nat n mod 2)) by (pose proof (Z.mod_pos_bound (Z.of_nat n) 2 ltac:(lia)); unfold bit; lia).
  rewrite walk_app, IH, Nat2Z.inj_succ. unfold Z.succ. rewrite Zplus_mod.
  destruct Bn as [-> | ->]; reflexivity.
Qed.

(** ** FSUConv2d *)
Definition fc_inputs (h : list (list (image Z) * option Q * option Z)) : list (list (image Z)) := map (fun x => fst (fst x)) h.
Definition fc_rows (c : conv_cfg) (p ho wo : nat) (h : list (list (image Z) * option Q * option Z)) : list (list (list Z) * option Q * option Z) :=
  map2 (fun r x => (r, snd (fst x), snd x)) (conv_rows c p ho wo (fc_inputs h)) h.

Lemma map2_app' {A B C} (f : A -> B -> C) l1 l2 m1 m2 : length l1 = length m1 -> map2 f (l1 ++ l2) (m1 ++ m2) = map2 f l1 m1 ++ map2 f l2 m2.
Proof.
  revert m1. induction l1 as [|a l1 IH]; intros [|b m1] L; try discriminate; [reflexivity|]. cbn [app map2]. rewrite IH by (cbn in L; lia). reflexivity.
Qed.

Lemma conv_rows_length c p ho wo h : length (conv_rows c p ho wo h) = length h.
Proof. apply tab_length. Qed.

Lemma fc_rows_length c p ho wo h : length (fc_rows c p ho wo h) = length h.
Proof. unfold fc_rows. rewrite map2_length; rewrite conv_rows_length; unfold fc_inputs; rewrite map_length; reflexivity. Qed.

Lemma fl_inputs_rows c p ho wo h : fl_inputs (fc_rows c p ho wo h) = conv_rows c p ho wo (fc_inputs h).
Proof.
  unfold fl_inputs, fc_rows. assert (L : length (conv_rows c p ho wo (fc_inputs h)) = length h) by (rewrite conv_rows_length; unfold fc_inputs; apply map_length).
  revert L. generalize (conv_rows c p ho wo (fc_inputs h)). intros g. revert g. induction h as [|x h IH]; intros [|r g] L; try discriminate; [reflexivity|].
  cbn [map2 map fst]. rewrite IH by (cbn in L; lia). reflexivity.
Qed.

Lemma fc_rows_snoc c p ho wo h x sc en : fc_rows c p ho wo (h ++ [(x, sc, en)]) =
  fc_rows c p ho wo h ++ [(conv_rows_at c p ho wo (border_bit (pc_mode (cv_pc c)) (length h)) x, sc, en)].
Proof.
  unfold fc_rows, fc_inputs. rewrite map_app. cbn [map fst]. rewrite conv_rows_snoc, map2_app' by (rewrite conv_rows_length, map_length; reflexivity).
  cbn [map2 fst snd]. rewrite map_length. reflexivity.
Qed.

Lemma fconv_run c a p N H W ho wo h : conv_geom c p H W ho wo -> (1 <= N)%nat -> Forall (tensor_ok bit N (cv_chan c) H W) (fc_inputs h) ->
  exists s, run_r (conv_step c) (conv_init c) (fc_inputs h) = Ok s /\
  run_r (fconv_step c a) (fconv_init c) h =
  Ok ({| fc_pc := fst s;
         fc_acc := match h with
                   | [] => None
                   | _ => Some (tab4 N (pc_out (cv_pc c)) ho wo (fun b q y x =>
                            final (fsuadd_call a) (fsuadd_init a) (fl_calls (cv_pc c) (fc_rows c p ho wo h) (row_index ho wo b y x) q)))
                   end |},
      tab (length h) (fun t => tab4 N (pc_out (cv_pc c)) ho wo (fun b q y x =>
        nth t (outs (fsuadd_call a) (fsuadd_init a) (fl_calls (cv_pc c) (fc_rows c p ho wo h) (row_index ho wo b y x) q)) 0))).
Proof.
  intros G HN. induction h as [|[[x sc] en] h IH] using rev_ind; intros Hh.
  - eexists. split; [reflexivity|]. reflexivity.
  - assert (Hh2 : Forall (tensor_ok bit N (cv_chan c) H W) (fc_inputs h ++ [x])) by (unfold fc_inputs in *; rewrite map_app in Hh; exact Hh).
    assert (Hh1 : Forall (tensor_ok bit N (cv_chan c) H W) (fc_inputs h)) by (apply Forall_app in Hh2; apply Hh2).
    destruct (IH Hh1) as (s & E1 & E2). clear IH.
    destruct (conv_run_tab c p N H W ho wo _ G HN Hh2) as (s2 & R2). destruct (conv_run_tab c p N H W ho wo _ G HN Hh1) as (s1 & R1).
    replace (fc_inputs (h ++ [(x, sc, en)])) with (fc_inputs h ++ [x]) by (unfold fc_inputs; rewrite map_app; reflexivity).
    rewrite R2. eexists. split; [reflexivity|]. cbn [fst].
    rewrite run_r_snoc, E2. unfold fconv_step at 1. cbn [fc_pc fc_acc].
    rewrite R1 in E1. apply (f_equal (fun r => match r with Ok p => p | Err _ => s end)) in E1. rewrite <- E1. cbn [fst].
    assert (Lt : length (fc_inputs h) = length h) by (unfold fc_inputs; apply map_length).
    rewrite app_length in R2. cbn [length] in R2. rewrite Nat.add_1_r, tab_S in R2.
    match type of R2 with _ = Ok (_, _ ++ [?o1]) => assert (St : conv_step c s1 x = Ok (s2, o1)) end.
    { rewrite run_r_snoc, R1 in R2.
      match type of R2 with match ?st with Ok _ => _ | Err _ => _ end = _ => destruct st as [[s3 o3]|e]; [|discriminate] end.
      apply (f_equal (fun r => match r with Ok p => p | Err _ => (s3, []) end)) in R2.
      pose proof (f_equal fst R2) as H1. pose proof (f_equal snd R2) as H2. cbn [fst snd] in H1, H2.
      apply app_inj_tail in H2. destruct H2 as [_ ->]. rewrite H1. reflexivity. }
    rewrite St. cbn [bind]. rewrite Lt.
    set (acc := fun b q y x0 => final (fsuadd_call a) (fsuadd_init a) (fl_calls (cv_pc c) (fc_rows c p ho wo h) (row_index ho wo b y x0) q)).
    set (cnt := fun b q y x0 => pc_out_at (cv_pc c) (conv_rows c p ho wo (fc_inputs h ++ [x])) (length h) (row_index ho wo b y x0) q).
    change (fun b q y x0 => pc_out_at (cv_pc c) (conv_rows c p ho wo (fc_inputs h ++ [x])) (length h) (row_index ho wo b y x0) q) with cnt.
    assert (Ea : match match h with [] => None | _ :: _ => Some (tab4 N (pc_out (cv_pc c)) ho wo acc) end with
       | None => map (map (map (map (fun _ : Z => fsuadd_init a)))) (tab4 N (pc_out (cv_pc c)) ho wo cnt)
       | Some m => m end = tab4 N (pc_out (cv_pc c)) ho wo acc).
    { destruct h; [|reflexivity]. rewrite map_tab4. reflexivity. }
    rewrite Ea. clear Ea. rewrite map2_tab4, !map_tab4.
    assert (Ecalls : forall b q y x0, fl_calls (cv_pc c) (fc_rows c p ho wo (h ++ [(x, sc, en)])) (row_index ho wo b y x0) q =
       fl_calls (cv_pc c) (fc_rows c p ho wo h) (row_index ho wo b y x0) q ++ [([cnt b q y x0], sc, en)]).
    { intros b q y x0. rewrite fc_rows_snoc, fl_calls_snoc, fl_inputs_rows, fc_rows_length. unfold cnt. rewrite conv_rows_snoc, Lt. reflexivity. }
    apply (f_equal Ok). apply (f_equal2 pair).
    + f_equal.
      transitivity (Some (tab4 N (pc_out (cv_pc c)) ho wo (fun b q y x0 => final (fsuadd_call a) (fsuadd_init a) (fl_calls (cv_pc c) (fc_rows c p ho wo (h ++ [(x, sc, en)])) (row_index ho wo b y x0) q))));
        [|destruct h; reflexivity].
      f_equal. apply tab4_ext. intros b q y x0 _ _ _ _. rewrite Ecalls, final_snoc. reflexivity.
    + rewrite app_length. cbn [length]. rewrite Nat.add_1_r, tab_S.
      assert (L : forall b q y x0, length (outs (fsuadd_call a) (fsuadd_init a) (fl_calls (cv_pc c) (fc_rows c p ho wo h) (row_index ho wo b y x0) q)) = length h).
      { intros. rewrite outs_length. unfold fl_calls. rewrite tab_length. apply fc_rows_length. }
      f_equal.
      * apply tab_ext. intros t Ht. apply tab4_ext. intros b q y x0 _ _ _ _. rewrite Ecalls, outs_snoc.
        rewrite app_nth1 by (rewrite L; exact Ht). reflexivity.
      * f_equal. apply tab4_ext. intros b q y x0 _ _ _ _. rewrite Ecalls, outs_snoc.
        rewrite app_nth2, L, Nat.sub_diag by (rewrite L; lia). reflexivity.
Qed.

Theorem fconv_windows : forall c a p N H W ho wo h, conv_geom c p H W ho wo -> (1 <= N)%nat ->
  Forall (tensor_ok bit N (cv_chan c) H W) (fc_inputs h) ->
  exists g ys os,
    map (fun x => snd (fst x)) g = map (fun x => snd (fst x)) h /\ map snd g = map snd h /\
    Forall (batch_ok (N * (ho * wo)) (pc_in (cv_pc c))) (fl_inputs g) /\
    (forall t n y x k i j, (t < length h)%nat -> (n < N)%nat -> (y < ho)%nat -> (x < wo)%nat ->
       (k < cv_chan c)%nat -> (i < fst (cv_kernel c))%nat -> (j < snd (cv_kernel c))%nat ->
       entry2 (nth t (fl_inputs g) []) (row_index ho wo n y x) (tap_index (fst (cv_kernel c)) (snd (cv_kernel c)) k i j) =
       surrounded (border_bit (pc_mode (cv_pc c)) t) H W (nth t (fc_inputs h) []) n k
         (Z.of_nat (y * fst (cv_stride c) + i * fst (cv_dil c)) - Z.of_nat p)
         (Z.of_nat (x * snd (cv_stride c) + j * snd (cv_dil c)) - Z.of_nat p)) /\
    outputs (run_r (flin_step (cv_pc c) a) (flin_init (cv_pc c)) g) = Some ys /\
    outputs (run_r (fconv_step c a) (fconv_init c) h) = Some os /\ length os = length h /\
    forall t, (t < length h)%nat -> tensor_ok (fun _ => True) N (pc_out (cv_pc c)) ho wo (nth t os []) /\
      forall n o y x, (n < N)%nat -> (o < pc_out (cv_pc c))%nat -> (y < ho)%nat -> (x < wo)%nat ->
        entry4 0 (nth t os []) n o y x = entry2 (nth t ys []) (row_index ho wo n y x) o.
Proof.
  intros c a p N H W ho wo h G HN Hh.
  destruct (fconv_run c a p N H W ho wo h G HN Hh) as (s & _ & E).
  assert (Gs := G). destruct Gs as (Hs & _ & _ & _ & _ & _ & _ & _ & _ & O1 & O2 & _).
  pose proof (conv_rows_batches c p N H W ho wo _ G Hh) as Hb.
  destruct (flin_run (cv_pc c) a (N * (ho * wo)) (fc_rows c p ho wo h) Hs (rows_pos N ho wo HN O1 O2)) as (pc & _ & R);
    [rewrite fl_inputs_rows; exact Hb|].
  exists (fc_rows c p ho wo h). eexists. eexists.
  assert (Lr : length (conv_rows c p ho wo (fc_inputs h)) = length h) by (rewrite conv_rows_length; unfold fc_inputs; apply map_length).
  split; [|split; [|split; [|split; [|split; [|split; [|split]]]]]].
  - unfold fc_rows. revert Lr. generalize (conv_rows c p ho wo (fc_inputs h)). clear. induction h as [|x h IH]; intros [|r g] L; try discriminate; [reflexivity|].
    cbn [map2 map fst snd]. rewrite IH by (cbn in L; lia). reflexivity.
  - unfold fc_rows. revert Lr. generalize (conv_rows c p ho wo (fc_inputs h)). clear. induction h as [|x h IH]; intros [|r g] L; try discriminate; [reflexivity|].
    cbn [map2 map fst snd]. rewrite IH by (cbn in L; lia). reflexivity.
  - rewrite fl_inputs_rows. exact Hb.
  - intros t n y x k i j Ht Hn Hy Hx Hk Hi Hj. rewrite fl_inputs_rows. unfold conv_rows.
    assert (Ht' : (t < length (fc_inputs h))%nat) by (unfold fc_inputs; rewrite map_length; exact Ht). rewrite tab_nth by exact Ht'.
    unfold row_index, tap_index. apply (conv_rows_entry c p N H W ho wo); try assumption; [apply border_bit_bit|].
    apply (Forall_nth_lt _ _ t [] Hh Ht').
  - rewrite R. reflexivity.
  - rewrite E. reflexivity.
  - apply tab_length.
  - intros t Ht. rewrite fc_rows_length. rewrite !tab_nth by exact Ht. split.
    + apply tab4_ok. intros. exact I.
    + intros n o y x Hn Ho Hy Hx. rewrite tab4_entry, tab2_entry by (try assumption; apply fold_index; assumption). reflexivity.
Qed.

Definition no_args4 (h : list (list (image Z))) : list (list (image Z) * option Q * option Z) := map (fun x => (x, None, None)) h.
Definition lane4 (h : list (list (image Z))) (n c y x : nat) : list Z := map (fun t => entry4 0 t n c y x) h.

Lemma fc_inputs_no_args h : fc_inputs (no_args4 h) = h.
Proof. unfold fc_inputs, no_args4. rewrite map_map. cbn [fst]. apply map_id. Qed.

Lemma fc_rows_no_args c p ho wo h : fc_rows c p ho wo (no_args4 h) = no_args (conv_rows c p ho wo h).
Proof.
  unfold fc_rows. rewrite fc_inputs_no_args. unfold no_args4, no_args. pose proof (conv_rows_length c p ho wo h) as L. revert L.
  generalize (conv_rows c p ho wo h). induction h as [|x h IH]; intros [|r g] L; try discriminate; [reflexivity|].
  cbn [map2 map fst snd]. rewrite IH by (cbn in L; lia). reflexivity.
Qed.

(** The default scale: the ones of an output are the floor of all product bits over the number of entries. *)
Theorem fconv_rate : forall c depth p N H W ho wo h, conv_geom c p H W ho wo -> rng_ok (cv_pc c) -> pc_wtc (cv_pc c) = false -> (1 <= N)%nat ->
  0 < flin_entry (cv_pc c) -> (inject_Z (2 * flin_entry (cv_pc c) - 1) <= qpow2 (depth - 2))%Q ->
  Forall (tensor_ok bit N (cv_chan c) H W) h ->
  exists os, outputs (run_r (fconv_step c (flin_acc_cfg (cv_pc c) None depth)) (fconv_init c) (no_args4 h)) = Some os /\ length os = length h /\
    forall n o y x, (n < N)%nat -> (o < pc_out (cv_pc c))%nat -> (y < ho)%nat -> (x < wo)%nat ->
      ones (lane4 os n o y x) =
      (sum_taps (cv_chan c) (fst (cv_kernel c)) (snd (cv_kernel c)) (fun k i j =>
         ones (outs (fsumul_static_step (pc_mode (cv_pc c))
                       (entry2 (pc_weight (cv_pc c)) o (tap_index (fst (cv_kernel c)) (snd (cv_kernel c)) k i j)) (pc_rng (cv_pc c)))
                    fsumul_static_init (tap_stream c p H W h n y x k i j)))
       + match pc_bias (cv_pc c) with None => 0 | Some bs => ones (bsgen_stream (nth o bs 0) (pc_rng (cv_pc c)) 0 (length h)) end)
      / (Z.of_nat (cv_chan c * (fst (cv_kernel c) * snd (cv_kernel c))) + match pc_bias (cv_pc c) with None => 0 | Some _ => 1 end).
Proof.
  intros c depth p N H W ho wo h G Hr Hw HN He Hd Hh. set (a := flin_acc_cfg (cv_pc c) None depth).
  destruct (fconv_run c a p N H W ho wo (no_args4 h) G HN) as (s & _ & E); [rewrite fc_inputs_no_args; exact Hh|]. rewrite E. clear E.
  eexists. split; [reflexivity|]. assert (Lh : length (no_args4 h) = length h) by (unfold no_args4; apply map_length). rewrite Lh.
  split; [apply tab_length|]. intros n o y x Hn Ho Hy Hx. rewrite fc_rows_no_args.
  assert (Gs := G). destruct Gs as (Hs & Ei & _ & _ & _ & _ & _ & _ & _ & O1 & O2 & _).
  pose proof (conv_rows_batches c p N H W ho wo _ G Hh) as Hb. pose proof (rows_pos N ho wo HN O1 O2) as HB.
  pose proof (fold_index n y x N ho wo Hn Hy Hx) as Hri. fold (row_index ho wo n y x) in Hri.
  unfold lane4. rewrite map_tab.
  assert (EL : tab (length h) (fun t => entry4 0 (tab4 N (pc_out (cv_pc c)) ho wo (fun b q y0 x0 =>
      nth t (outs (fsuadd_call a) (fsuadd_init a) (fl_calls (cv_pc c) (no_args (conv_rows c p ho wo h)) (row_index ho wo b y0 x0) q)) 0)) n o y x) =
    outs (fsuadd_call a) (fsuadd_init a) (fl_calls (cv_pc c) (no_args (conv_rows c p ho wo h)) (row_index ho wo n y x) o)).
  { rewrite <- (outs_tab_nth (fsuadd_call a) (fsuadd_init a) _ (length h) 0).
    - apply tab_ext. intros t Ht. rewrite tab4_entry by assumption. reflexivity.
    - unfold fl_calls. rewrite tab_length. unfold no_args. rewrite map_length. apply conv_rows_length. }
  rewrite EL. clear EL. unfold a.
  rewrite (flin_floor (cv_pc c) depth (N * (ho * wo)) _ _ _ Hs HB He Hd Hb Hri Ho).
  rewrite (pc_total_rate (cv_pc c) (N * (ho * wo)) _ _ _ Hw Hr Hb Hri). unfold flin_entry, bias_ones. rewrite Ei, conv_rows_length.
  f_equal. f_equal.
  change (map ?f (seq 0 ?n)) with (tab n f). rewrite sum_taps_tab. apply sum_taps_ext. intros k i j Hk Hi Hj.
  rewrite (lane_tap c p N H W ho wo); [reflexivity|assumption..].
Qed.

(** A tap outside the image adds bipolar zero: over whole double periods its product stream has as many ones as zeros. *)
Theorem border_product : forall w B rng T, perm_seq w rng -> 0 <= B <= p2 w -> (2 * p2 w | Z.of_nat T) ->
  walk (outs (fsumul_static_step Bipolar B rng) fsumul_static_init (alternating T)) = 0.
Proof.
  intros w B rng T HP HB HT.
  assert (Hbits : bits (alternating T)).
  { unfold bits, alternating. rewrite Forall_map. apply Forall_forall. intros t _. pose proof (Z.mod_pos_bound (Z.of_nat t) 2 ltac:(lia)). unfold bit. lia. }
  pose proof (alternating_walk T) as Wk. pose proof (ones_zeros _ Hbits) as OZ.
  assert (L : zlen (alternating T) = Z.of_nat T) by (unfold zlen, alternating; rewrite map_length, seq_length; reflexivity). rewrite L in OZ.
  destruct HT as [q Hq]. assert (E0 : Z.of_nat T mod 2 = 0) by (apply Z.mod_divide; [lia|]; exists (q * p2 w); lia).
  rewrite E0 in Wk. unfold walk in Wk.
  assert (O1 : ones (alternating T) = q * p2 w) by lia. assert (Z1 : zeros (alternating T) = q * p2 w) by lia.
  pose proof (perm_seq_len_pos w rng HP) as HL.
  destruct (mul_static_count Bipolar B rng (alternating T) HL Hbits) as [Hob _].
  pose proof (ones_zeros _ Hob) as OZ2.
  assert (L2 : zlen (outs (fsumul_static_step Bipolar B rng) fsumul_static_init (alternating T)) = Z.of_nat T) by (unfold zlen in *; rewrite outs_length; exact L).
  rewrite L2 in OZ2. pose proof (p2_pos w).
  assert (M' : ones (outs (fsumul_static_step Bipolar B rng) fsumul_static_init (alternating T)) * p2 w = ones (alternating T) * B + zeros (alternating T) * (p2 w - B)).
  { apply (mul_static_exact Bipolar); try assumption; [exists q; lia|]. intros _. exists q. lia. }
  rewrite O1, Z1 in M'. unfold walk. nia.
Qed.

(** ** A pair as padding *)
Lemma expand_one_length {A} n (a : A) : length (expand n [a]) = n.
Proof.
  unfold expand. cbn [length]. destruct (Nat.eqb_spec 1 n) as [<-|]; [reflexivity|].
  induction n as [|n IH]; [reflexivity|]. cbn [repeat concat app length].
  destruct (Nat.eq_dec 1 n) as [<-|]; [reflexivity|]. f_equal. apply IH. congruence.
Qed.

Lemma conv_axis_unfold h k s p d : (1 <= s)%nat ->
  conv_axis (Z.of_nat h) (Z.of_nat k) (Z.of_nat s) (Z.of_nat p) (Z.of_nat p) (Z.of_nat d) = unfold_axis (h + 2 * p) k s d.
Proof. intros Hs. rewrite conv_axis_eq by lia. unfold unfold_axis. f_equal. f_equal. lia. Qed.

Lemma positions_unfold n k s d : (1 <= s)%nat -> (1 <= k)%nat ->
  positions (Z.of_nat n) (Z.of_nat k) (Z.of_nat s) (Z.of_nat d) = Z.max 0 (unfold_axis n k s d).
Proof. intros Hs Hk. rewrite positions_eq by nia. reflexivity. Qed.

Theorem conv_pair_padding : forall c a b N H W input,
  cv_pad c = PadPair a b -> (1 <= N)%nat -> (1 <= cv_chan c)%nat -> (1 <= H)%nat ->
  (1 <= fst (cv_kernel c))%nat -> (1 <= snd (cv_kernel c))%nat -> (1 <= fst (cv_stride c))%nat -> (1 <= snd (cv_stride c))%nat ->
  tensor_ok bit N (cv_chan c) H W input ->
  let pos n pr := positions (Z.of_nat n) (Z.of_nat (pr (cv_kernel c))) (Z.of_nat (pr (cv_stride c))) (Z.of_nat (pr (cv_dil c))) in
  pos H fst * pos (W + a + b)%nat snd <> pos (H + 2 * a)%nat fst * pos (W + 2 * b)%nat snd ->
  conv_step c (conv_init c) input = Err RuntimeError.
Proof.
  intros c a b N H W input Ep HN HC HH K1 K2 S1 S2 T pos Hne. unfold conv_step.
  assert (Sz := tensor_size bit N (cv_chan c) H W input T HN HC HH).
  assert (Es : conv2d_output_shape (natpair (size_hw input)) (natpair (cv_kernel c)) (natpair (cv_stride c)) (pad_arg (cv_pad c)) (natpair (cv_dil c)) =
    (unfold_axis (H + 2 * a) (fst (cv_kernel c)) (fst (cv_stride c)) (fst (cv_dil c)), unfold_axis (W + 2 * b) (snd (cv_kernel c)) (snd (cv_stride c)) (snd (cv_dil c)))).
  { rewrite Sz, Ep. unfold conv2d_output_shape, natpair, pad_arg. cbn [num2tuple pad_tuple fst snd]. rewrite !conv_axis_unfold by assumption. reflexivity. }
  rewrite Es. clear Es. unfold conv_init. cbn [cv_even cv_idx].
  assert (Em : map (constant_pad (cv_pad c) 0) input = pad_all 0 0 a b 0 input) by (rewrite Ep; reflexivity). rewrite Em. clear Em.
  pose proof (pad_all_tensor bit 0 0 a b 0 N (cv_chan c) H W input T ltac:(left; reflexivity) HH) as T'.
  unfold unfold_rows. rewrite (tensor_size bit N (cv_chan c) _ _ _ T' HN HC ltac:(lia)). cbn [fst snd].
  unfold pos in Hne. rewrite !positions_unfold in Hne by assumption.
  replace (0 + H + 0)%nat with H by lia. replace (a + W + b)%nat with (W + a + b)%nat by lia.
  set (h1 := unfold_axis H _ _ _) in *. set (w1 := unfold_axis (W + a + b) _ _ _) in *.
  set (h2 := unfold_axis (H + 2 * a) _ _ _) in *. set (w2 := unfold_axis (W + 2 * b) _ _ _) in *.
  destruct (Z.ltb_spec h1 1); [reflexivity|]. destruct (Z.ltb_spec w1 1); [reflexivity|]. cbn [orb bind].
  change (flat_map _ (pad_all 0 0 a b 0 input)) with (rows_of 0 (cv_kernel c) (cv_stride c) (cv_dil c) (Z.to_nat h1) (Z.to_nat w1) (pad_all 0 0 a b 0 input)).
  set (rows := rows_of _ _ _ _ _ _ _).
  assert (Lr : Z.of_nat (length rows) = Z.of_nat N * (h1 * w1)).
  { unfold rows. rewrite rows_of_length. destruct T' as [-> _]. rewrite !Nat2Z.inj_mul, !Z2Nat.id by lia. reflexivity. }
  clearbody rows. destruct (length rows =? 0)%nat; [reflexivity|]. destruct (negb _); [reflexivity|].
  unfold pc_init. cbn [pc_i1]. rewrite bcast_same by (rewrite expand_one_length; reflexivity). cbn [bind].
  assert (Lm : forall x, length (matmul rows (expand (length rows) (wbits (pc_weight (cv_pc c)) (pc_rng (cv_pc c)) [x]))) = length rows).
  { intros x. unfold matmul. rewrite map2_length; cbn [wbits map]; rewrite expand_one_length; reflexivity. }
  unfold fold. rewrite Lm, Lr. destruct T as [-> _].
  destruct (Z.ltb_spec h2 1); [reflexivity|]. destruct (Z.ltb_spec w2 1); [reflexivity|]. cbn [orb].
  destruct (Z.eqb_spec (Z.of_nat N * (h1 * w1)) (Z.of_nat N * (h2 * w2))) as [E|]; [|reflexivity].
  exfalso. apply Hne. rewrite !Z.max_r by lia. apply Z.mul_reg_l in E; lia.
Qed.

(** With unit strides a padding (p, p) raises on every image; the number p does not. *)
Theorem conv_pair_square : forall c p N H W input,
  cv_pad c = PadPair p p -> (1 <= p)%nat -> (1 <= N)%nat -> (1 <= cv_chan c)%nat -> (1 <= H)%nat ->
  (1 <= fst (cv_kernel c))%nat -> (1 <= snd (cv_kernel c))%nat -> cv_stride c = (1%nat, 1%nat) ->
  tensor_ok bit N (cv_chan c) H W input -> conv_step c (conv_init c) input = Err RuntimeError.
Proof.
  intros c p N H W input Ep Hp HN HC HH K1 K2 Es T.
  set (pos n pr := positions (Z.of_nat n) (Z.of_nat (pr (cv_kernel c))) 1 (Z.of_nat (pr (cv_dil c)))).
  destruct (Z.eq_dec (pos H fst * pos (W + p + p)%nat snd) (pos (H + 2 * p)%nat fst * pos (W + 2 * p)%nat snd)) as [E|E].
  - unfold pos in E. replace (W + p + p)%nat with (W + 2 * p)%nat in E by lia.
    change 1 with (Z.of_nat 1) in E. rewrite !positions_unfold in E by lia.
    unfold conv_step. assert (Sz := tensor_size bit N (cv_chan c) H W input T HN HC HH).
    unfold conv_init. cbn [cv_even cv_idx].
    assert (Em : map (constant_pad (cv_pad c) 0) input = pad_all 0 0 p p 0 input) by (rewrite Ep; reflexivity). rewrite Em. clear Em.
    pose proof (pad_all_tensor bit 0 0 p p 0 N (cv_chan c) H W input T ltac:(left; reflexivity) HH) as T'.
    unfold unfold_rows. rewrite (tensor_size bit N (cv_chan c) _ _ _ T' HN HC ltac:(lia)). rewrite Es. cbn [fst snd].
    replace (0 + H + 0)%nat with H by lia. replace (p + W + p)%nat with (W + 2 * p)%nat by lia.
    destruct (Z.ltb_spec (unfold_axis H (fst (cv_kernel c)) 1 (fst (cv_dil c))) 1) as [|B1]; [reflexivity|].
    destruct (Z.ltb_spec (unfold_axis (W + 2 * p) (snd (cv_kernel c)) 1 (snd (cv_dil c))) 1) as [|B2]; [reflexivity|].
    exfalso.
    assert (B3 : unfold_axis (H + 2 * p) (fst (cv_kernel c)) 1 (fst (cv_dil c)) = unfold_axis H (fst (cv_kernel c)) 1 (fst (cv_dil c)) + 2 * Z.of_nat p)
      by (unfold unfold_axis; change (Z.of_nat 1) with 1; rewrite !Z.div_1_r; lia).
    rewrite B3, !Z.max_r in E by lia. nia.
  - apply (conv_pair_padding c p p N H W); try assumption; rewrite ?Es; cbn [fst snd]; try lia. exact E.
Qed.

(** ** The constructors *)
Definition conv_args_ok (ci co kh kw : nat) (bias : bool) (we : option (list (list (list (list Q))))) (be : option (list Q))
  (winit : list (list (list (list Q)))) : Prop :=
  match we with None => shape4 co ci kh kw winit = true | Some w => shape4 co ci kh kw w = true end /\
  match be with None => True | Some b => bias = true -> length b = co end.

Lemma shape4_ok {A} o c kh kw (w : list (list (list (list A)))) : shape4 o c kh kw w = true -> tensor_ok (fun _ => True) o c kh kw w.
Proof.
  unfold shape4, shape2. intros H. apply andb_true_iff in H. destruct H as [H1 H2]. split; [apply Nat.eqb_eq, H1|].
  rewrite forallb_forall in H2. apply Forall_forall. intros f Hf. specialize (H2 f Hf). apply andb_true_iff in H2. destruct H2 as [L1 L2].
  split; [apply Nat.eqb_eq, L1|]. rewrite forallb_forall in L2. apply Forall_forall. intros ch Hc. specialize (L2 ch Hc).
  apply andb_true_iff in L2. destruct L2 as [M1 M2]. split; [apply Nat.eqb_eq, M1|]. rewrite forallb_forall in M2.
  apply Forall_forall. intros row Hr. split; [apply Nat.eqb_eq, M2, Hr|]. apply Forall_forall. intros. exact I.
Qed.

Lemma concat_flat_map {A} (l : list (list A)) : concat l = flat_map (fun x => x) l.
Proof. induction l as [|x l IH]; [reflexivity|]. cbn [concat flat_map]. rewrite IH. reflexivity. Qed.

Lemma flat_filter_entry {A} (d : A) o c kh kw (w : list (list (list (list A)))) q k i j :
  tensor_ok (fun _ => True) o c kh kw w -> (q < o)%nat -> (k < c)%nat -> (i < kh)%nat -> (j < kw)%nat ->
  nth (tap_index kh kw k i j) (flat_filter (nth q w [])) d = entry4 d w q k i j.
Proof.
  intros [L F] Hq Hk Hi Hj. unfold flat_filter, entry4, tap_index. rewrite <- L in Hq. pose proof (Forall_nth_lt _ _ q [] F Hq) as [LC FC].
  rewrite <- flat_map_concat_map. rewrite <- LC in Hk. pose proof (Forall_nth_lt _ _ k [] FC Hk) as [LH FH].
  rewrite (flat_map_nth _ (kh * kw) _ k _ []); [|intros a Ha; rewrite Forall_forall in FC; destruct (FC a Ha) as [La Fa]|exact Hk|nia].
  - rewrite concat_flat_map. rewrite <- LH in Hi.
    rewrite (flat_map_nth _ kw _ i _ []); [reflexivity|intros a Ha; rewrite Forall_forall in FH; apply FH, Ha|exact Hi|exact Hj].
  - rewrite concat_flat_map, (flat_map_length _ kw), La; [reflexivity|]. intros r Hr. rewrite Forall_forall in Fa. apply Fa, Hr.
Qed.

Lemma flat_filter_shape {A B} (f : A -> B) o c kh kw (w : list (list (list (list A)))) : tensor_ok (fun _ => True) o c kh kw w ->
  length (map (fun x => map f (flat_filter x)) w) = o /\ Forall (fun row => length row = (c * (kh * kw))%nat) (map (fun x => map f (flat_filter x)) w).
Proof.
  intros [L F]. split; [rewrite map_length; exact L|]. rewrite Forall_map. eapply Forall_impl; [|exact F]. intros img [LC FC].
  rewrite map_length. unfold flat_filter. rewrite <- flat_map_concat_map, (flat_map_length _ (kh * kw)), LC; [reflexivity|].
  intros ch Hc. rewrite Forall_forall in FC. destruct (FC ch Hc) as [LH FH]. rewrite concat_flat_map, (flat_map_length _ kw), LH; [reflexivity|].
  intros r Hr. rewrite Forall_forall in FH. apply FH, Hr.
Qed.

Lemma flat_filter_map_entry {A} (d : A) (f : A -> Z) o c kh kw (w : list (list (list (list A)))) q k i j :
  tensor_ok (fun _ => True) o c kh kw w -> (q < o)%nat -> (k < c)%nat -> (i < kh)%nat -> (j < kw)%nat ->
  entry2 (map (fun x => map f (flat_filter x)) w) q (tap_index kh kw k i j) = f (entry4 d w q k i j).
Proof.
  intros T Hq Hk Hi Hj. unfold entry2. assert (T' := T). destruct T' as [L F].
  rewrite (map_nth_lt' _ _ _ [] []) by (rewrite L; exact Hq).
  destruct (flat_filter_shape (fun x => x) o c kh kw w T) as [_ F2]. rewrite Forall_map in F2. rewrite <- L in Hq. pose proof (Forall_nth_lt _ _ q [] F2 Hq) as Lq.
  cbn beta in Lq. rewrite map_length in Lq. rewrite L in Hq.
  rewrite (map_nth_lt' f _ _ d 0); [|rewrite Lq; unfold tap_index; apply fold_index; assumption].
  f_equal. apply (flat_filter_entry d o c kh kw w); assumption.
Qed.

Theorem conv_new_outcome : forall ext ci co kernel stride pad dil bias we be winit width m_name r_name dimr m k,
  mode_parse m_name = Ok m -> rng_parse r_name = Ok k -> conv_args_ok ci co (fst kernel) (snd kernel) bias we be winit ->
  match conv_new ext ci co kernel stride pad dil 1 bias "zeros" we be winit width m_name r_name dimr with
  | Err e => e = AttributeError /\ bias = true /\ be = None
  | Ok c => ~ (bias = true /\ be = None) /\ pc_shape (cv_pc c) /\ pc_mode (cv_pc c) = m /\ pc_wtc (cv_pc c) = is_tc k /\
            pc_in (cv_pc c) = (ci * (fst kernel * snd kernel))%nat /\ pc_out (cv_pc c) = co /\ (pc_bias (cv_pc c) = None <-> bias = false) /\
            cv_chan c = ci /\ cv_kernel c = kernel /\ cv_stride c = stride /\ cv_dil c = dil /\ cv_pad c = pad /\
            forall q z i j, (q < co)%nat -> (z < ci)%nat -> (i < fst kernel)%nat -> (j < snd kernel)%nat ->
              entry2 (pc_weight (cv_pc c)) q (tap_index (fst kernel) (snd kernel) z i j) =
              match we with Some w => bingen m width (entry4 0%Q w q z i j) | None => Qceiling (entry4 0%Q winit q z i j) end
  end.
Proof.
  intros ext ci co kernel stride pad dil bias we be winit width mn rn dimr m k Hm Hk [Hw Hb]. unfold conv_new.
  rewrite !Nat.mod_1_r. cbn [Nat.eqb andb negb]. change (negb (padding_mode_known "zeros")) with false. cbn [negb].
  change (negb ("zeros" =? "zeros")%string) with false.
  rewrite Hm, Hk. cbn [bind]. destruct kernel as [kh kw]. cbn [fst snd] in *.
  set (f := match we with Some _ => bingen m width | None => Qceiling end).
  set (w := match we with Some w => w | None => winit end).
  assert (T : tensor_ok (fun _ => True) co ci kh kw w) by (unfold w; destruct we; apply shape4_ok, Hw).
  assert (Ew : match we with
     | Some we0 => if shape4 co ci kh kw we0 then Ok (map (fun f0 => map (bingen m width) (flat_filter f0)) we0) else Err AssertionError
     | None => Ok (map (fun f0 => map Qceiling (flat_filter f0)) winit) end = Ok (map (fun x => map f (flat_filter x)) w)).
  { unfold f, w. destruct we; [rewrite Hw|]; reflexivity. }
  rewrite Ew. clear Ew. cbn [bind]. destruct (flat_filter_shape f co ci kh kw w T) as [S1 S2].
  assert (En : forall q z i j, (q < co)%nat -> (z < ci)%nat -> (i < kh)%nat -> (j < kw)%nat ->
     entry2 (map (fun x => map f (flat_filter x)) w) q (tap_index kh kw z i j) =
     match we with Some w => bingen m width (entry4 0%Q w q z i j) | None => Qceiling (entry4 0%Q winit q z i j) end).
  { intros. rewrite (flat_filter_map_entry 0%Q f co ci kh kw w) by assumption. unfold f, w. destruct we; reflexivity. }
  assert (Ei : (ci * kh * kw = ci * (kh * kw))%nat) by lia.
  clearbody f w. destruct bias; [destruct be as [be|]|].
  - rewrite (Hb eq_refl), Nat.eqb_refl. cbn [bind]. unfold pc_shape.
    cbn [cv_pc cv_chan cv_kernel cv_stride cv_dil cv_pad pc_mode pc_wtc pc_rng pc_in pc_out pc_weight pc_bias fst snd]. rewrite Ei.
    split; [intros [_ Hx]; discriminate|].
    split; [split; [exact S1|split; [exact S2|rewrite map_length; apply Hb; reflexivity]]|].
    repeat (split; [reflexivity|]). split; [split; discriminate|]. repeat (split; [reflexivity|]). exact En.
  - cbn [bind]. split; [reflexivity|split; reflexivity].
  - cbn [bind]. unfold pc_shape.
    cbn [cv_pc cv_chan cv_kernel cv_stride cv_dil cv_pad pc_mode pc_wtc pc_rng pc_in pc_out pc_weight pc_bias fst snd]. rewrite Ei.
    split; [intros [Hx _]; discriminate|].
    split; [split; [exact S1|split; [exact S2|exact I]]|].
    repeat (split; [reflexivity|]). split; [split; reflexivity|]. repeat (split; [reflexivity|]). exact En.
Qed.

Theorem fconv_new_outcome : forall ext ci co kernel stride pad dil bias we be winit width m_name r_name dimr scale depth m k,
  mode_parse m_name = Ok m -> rng_parse r_name = Ok k -> conv_args_ok ci co (fst kernel) (snd kernel) bias we be winit ->
  (scale = None \/ m = Unipolar \/ is_tc k = false) ->
  match fconv_new ext ci co kernel stride pad dil 1 bias "zeros" we be winit width m_name r_name dimr scale depth with
  | Err e => e = AttributeError /\ bias = true /\ be = None
  | Ok (c, a) => conv_new ext ci co kernel stride pad dil 1 bias "zeros" we be winit width m_name r_name dimr = Ok c /\
                 a = flin_acc_cfg (cv_pc c) scale depth
  end.
Proof.
  intros ext ci co kernel stride pad dil bias we be winit width mn rn dimr scale depth m k Hm Hk Ha Hs. unfold fconv_new.
  pose proof (conv_new_outcome ext ci co kernel stride pad dil bias we be winit width mn rn dimr m k Hm Hk Ha) as H.
  rewrite Hk. set (entry := Z.of_nat (fst kernel * snd kernel * ci) + b2z bias).
  assert (E : ((lower mn =? "bipolar")%string && match scale with None => false | Some q => negb (Qeq_bool q (inject_Z entry)) end && is_tc k)%bool = false).
  { destruct Hs as [->|[->| ->]].
    - rewrite andb_false_r. reflexivity.
    - unfold mode_parse in Hm. destruct (lower mn =? "bipolar")%string eqn:E; [|reflexivity].
      apply String.eqb_eq in E. rewrite E in Hm. cbn in Hm. discriminate.
    - apply andb_false_r. }
  rewrite E. clear E.
  destruct (conv_new ext ci co kernel stride pad dil 1 bias "zeros" we be winit width mn rn dimr) as [c|e]; cbn [bind]; [|exact H].
  split; [reflexivity|]. destruct H as (_ & _ & _ & _ & Ei & _ & Eb & _).
  assert (Ee : flin_entry (cv_pc c) = entry).
  { unfold flin_entry, entry. rewrite Ei. destruct (pc_bias (cv_pc c)); destruct bias; cbn [b2z]; try lia.
    - destruct Eb as [_ Eb]. specialize (Eb eq_refl). discriminate.
    - destruct Eb as [Eb _]. specialize (Eb eq_refl). discriminate. }
  unfold flin_acc_cfg. rewrite Ee. reflexivity.
Qed.

(** ** What a successful construction says about the arguments *)
Lemma mode_parse_ok s m : mode_parse s = Ok m -> lower s = match m with Unipolar => "unipolar"%string | Bipolar => "bipolar"%string end.
Proof.
  unfold mode_parse. destruct (String.eqb_spec (lower s) "unipolar"%string) as [E|_]; [intros H; injection H as <-; exact E|].
  destruct (String.eqb_spec (lower s) "bipolar"%string) as [E|_]; [intros H; injection H as <-; exact E|discriminate].
Qed.

Lemma pc_new_accepts : forall ext ni no bias we be winit width m_name r_name dimr c,
  pc_new ext ni no bias we be winit width m_name r_name dimr = Ok c ->
  (lower m_name = "unipolar"%string \/ lower m_name = "bipolar"%string) /\
  (exists k, rng_parse r_name = Ok k) /\
  match we with None => True | Some w => shape2 no ni w = true end /\
  (bias = true -> exists b, be = Some b /\ length b = no).
Proof.
  intros ext ni no bias we be winit width mn rn dimr c. unfold pc_new.
  destruct (mode_parse mn) as [m|] eqn:Em; [|discriminate]. apply mode_parse_ok in Em. cbn [bind].
  destruct (rng_parse rn) as [k|]; [|discriminate]. cbn [bind].
  intros H. split; [destruct m; [left|right]; exact Em|]. split; [eauto|].
  destruct we as [w|].
  - destruct (shape2 no ni w); [|discriminate H]. split; [reflexivity|]. intros ->. destruct be as [b|]; [|discriminate H].
    destruct (Nat.eqb_spec (length b) no); [|discriminate H]. eauto.
  - split; [exact Logic.I|]. intros ->. destruct be as [b|]; [|discriminate H].
    destruct (Nat.eqb_spec (length b) no); [|discriminate H]. eauto.
Qed.

Lemma flin_new_accepts : forall ext ni no bias we be winit width m_name r_name dimr scale depth c a,
  flin_new ext ni no bias we be winit width m_name r_name dimr scale depth = Ok (c, a) ->
  pc_new ext ni no bias we be winit width m_name r_name dimr = Ok c /\
  forall q k, lower m_name = "bipolar"%string -> rng_parse r_name = Ok k -> is_tc k = true -> scale = Some q ->
    (q == inject_Z (Z.of_nat ni + b2z bias))%Q.
Proof.
  intros ext ni no bias we be winit width mn rn dimr scale depth c a. unfold flin_new.
  match goal with |- (if ?b then _ else _) = _ -> _ => destruct b eqn:E end; [discriminate|].
  destruct (pc_new _ _ _ _ _ _ _ _ _ _ _) as [c'|]; [|discriminate]. cbn [bind]. intros H. injection H as -> _.
  split; [reflexivity|]. intros q k Hm Hk Ht ->. rewrite Hm, Hk, Ht in E. cbn in E. rewrite andb_true_r in E.
  apply negb_false_iff in E. apply Qeq_bool_iff, E.
Qed.

Lemma conv_new_accepts : forall ext ci co kernel stride pad dil groups bias pmode we be winit width m_name r_name dimr c,
  conv_new ext ci co kernel stride pad dil groups bias pmode we be winit width m_name r_name dimr = Ok c ->
  groups = 1%nat /\ pmode = "zeros"%string /\
  (lower m_name = "unipolar"%string \/ lower m_name = "bipolar"%string) /\
  (exists k, rng_parse r_name = Ok k) /\
  match we with None => True | Some w => shape4 co ci (fst kernel) (snd kernel) w = true end /\
  (bias = true -> exists b, be = Some b /\ length b = co).
Proof.
  intros ext ci co kernel stride pad dil groups bias pmode we be winit width mn rn dimr c. unfold conv_new.
  destruct (negb (_ && _)%nat); [discriminate|]. destruct (negb (padding_mode_known pmode)); [discriminate|].
  destruct (mode_parse mn) as [m|] eqn:Em; [|discriminate]. apply mode_parse_ok in Em. cbn [bind].
  destruct (Nat.eqb_spec groups 1) as [->|]; [|discriminate]. destruct (String.eqb_spec pmode "zeros"%string) as [->|]; [|discriminate].
  cbn [negb]. destruct (rng_parse rn) as [k|]; [|discriminate]. cbn [bind]. destruct kernel as [kh kw]. cbn [fst snd].
  intros H. split; [reflexivity|]. split; [reflexivity|]. split; [destruct m; [left|right]; exact Em|]. split; [eauto|].
  destruct we as [w|].
  - destruct (shape4 co ci kh kw w); [|discriminate H]. split; [reflexivity|]. intros ->. destruct be as [b|]; [|discriminate H].
    destruct (Nat.eqb_spec (length b) co); [|discriminate H]. eauto.
  - split; [exact Logic.I|]. intros ->. destruct be as [b|]; [|discriminate H].
    destruct (Nat.eqb_spec (length b) co); [|discriminate H]. eauto.
Qed.

Lemma fconv_new_accepts : forall ext ci co kernel stride pad dil groups bias pmode we be winit width m_name r_name dimr scale depth c a,
  fconv_new ext ci co kernel stride pad dil groups bias pmode we be winit width m_name r_name dimr scale depth = Ok (c, a) ->
  conv_new ext ci co kernel stride pad dil groups bias pmode we be winit width m_name r_name dimr = Ok c /\
  forall q k, lower m_name = "bipolar"%string -> rng_parse r_name = Ok k -> is_tc k = true -> scale = Some q ->
    (q == inject_Z (Z.of_nat (ci * (fst kernel * snd kernel)) + b2z bias))%Q.
Proof.
  intros ext ci co kernel stride pad dil groups bias pmode we be winit width mn rn dimr scale depth c a. unfold fconv_new.
  match goal with |- (if ?b then _ else _) = _ -> _ => destruct b eqn:E end; [discriminate|].
  destruct (conv_new _ _ _ _ _ _ _ _ _ _ _ _ _ _ _ _ _) as [c'|]; [|discriminate]. cbn [bind]. intros H. injection H as -> _.
  split; [reflexivity|]. intros q k Hm Hk Ht ->. rewrite Hm, Hk, Ht in E. cbn in E. rewrite ?andb_true_r in E.
  apply negb_false_iff in E. apply Qeq_bool_iff in E. rewrite E. rewrite (Nat.mul_comm ci). reflexivity.
Qed.
