(** Model of /repo/kernel/linear.py: FSULinearPC and FSULinear. Tensors are nested lists, all of a
    rectangular shape. *)
From Coq Require Import String.
Require Export Verif.Base Verif.GenModel Verif.AddModel.
Open Scope Z_scope.

(** ** Construction *)

(** linear.py:8-99, 102-189: the attributes of a constructed FSULinearPC. [pc_wtc]: temporal coding of the weight.
    [pc_bias] is [Some] iff has_bias. *)
Record pc_cfg : Type := {
  pc_mode : mode;
  pc_wtc : bool;
  pc_rng : list Z;
  pc_in : nat;
  pc_out : nat;
  pc_weight : list (list Z);
  pc_bias : option (list Z)
}.

(** linear.py:154, conv.py:170: rng in ["race", "tc", "race10", "tc10"] (lower-cased). *)
Definition is_tc (k : rng_kind) : bool :=
  match k with KAsc | KDesc => true | _ => false end.

(** weight.size() = (out_features, in_features), linear.py:162. *)
Definition shape2 {A : Type} (r c : nat) (m : list (list A)) : bool :=
  (length m =? r)%nat && forallb (fun row => (length row =? c)%nat) m.

(** linear.py:126-189. [weight_init], [bias_init]: the parameters torch.nn.Linear draws; a weight that is not replaced
    by an external one is compared as a real with an integer r, and w > r iff ceil(w) > r, hence the ceiling.
    The dtype assertions (swcfg) are not modelled. Order of the failing checks as in the code: mode (140), RNG (152),
    weight shape (162), bias shape (168), BSGen of the bias with the attribute brng, only set when bias_ext is
    given (177, 183). BSGen's own check of the length of the sequence cannot fail: it is 2**width. *)
Definition pc_new (ext : rng_ext) (in_features out_features : nat) (bias : bool)
           (weight_ext : option (list (list Q))) (bias_ext : option (list Q))
           (weight_init : list (list Q)) (width : nat) (mode_name rng_name : string) (dimr : nat) : result pc_cfg :=
  bind (mode_parse mode_name) (fun m =>
  bind (rng_parse rng_name) (fun k =>
  let wrng := rng_seq ext k width dimr in
  bind (match weight_ext with
        | None => Ok (map (map Qceiling) weight_init)
        | Some we => if shape2 out_features in_features we then Ok (map (map (bingen m width)) we)
                     else Err AssertionError
        end) (fun w =>
  bind (if bias then
          match bias_ext with
          | None => Err AttributeError
          | Some be => if (length be =? out_features)%nat then Ok (Some (map (bingen m width) be))
                       else Err AssertionError
          end
        else Ok None) (fun b =>
  Ok {| pc_mode := m; pc_wtc := is_tc k; pc_rng := wrng; pc_in := in_features; pc_out := out_features;
        pc_weight := w; pc_bias := b |})))).

(** ** FSULinearPC.forward *)

(** linear.py:181, 184, 189: wrdx_i1, wrdx_i0 of shape (rows, out, in), brdx of shape (out). In the modes without a
    wrdx_i0 it is kept at zero here. *)
Record pc_st : Type := {
  pc_i1 : list (list (list Z));
  pc_i0 : list (list (list Z));
  pc_brdx : list Z
}.

Definition pc_init (c : pc_cfg) : pc_st :=
  let z := map (map (fun _ => 0)) (pc_weight c) in
  {| pc_i1 := [z]; pc_i0 := [z]; pc_brdx := match pc_bias c with None => [] | Some b => map (fun _ => 0) b end |}.

(** BSGen(weight, rng)(index) for an index tensor (rows, out, in), linear.py:197, 221. *)
Definition wbits (w : list (list Z)) (rng : list Z) (idx : list (list (list Z))) : list (list (list Z)) :=
  map (map2 (map2 (fun b i => bsgen_bit b rng i)) w) idx.

(** 1 - tensor. *)
Definition neg3 (t : list (list (list Z))) : list (list (list Z)) := map (map (map (fun x => 1 - x))) t.

(** torch.cat(batch*[t], 0) if t.size()[0] != batch, linear.py:198-200, 222-224. *)
Definition expand {A : Type} (batch : nat) (t : list A) : list A :=
  if (length t =? batch)%nat then t else concat (repeat t batch).

(** Broadcasting of the first dimension of the input against n rows in torch.add and torch.matmul. *)
Definition bcast {A : Type} (n : nat) (rows : list A) : result (list A) :=
  if (length rows =? n)%nat then Ok rows
  else match rows with
       | [r] => Ok (repeat r n)
       | _ => Err RuntimeError
       end.

(** torch.add(idx, delta.unsqueeze(1)): every output row of a batch row gets the same increment. *)
Definition add_rows (idx : list (list (list Z))) (delta : list (list Z)) : list (list (list Z)) :=
  map2 (fun m d => map (fun r => map2 Z.add r d) m) idx delta.

(** torch.matmul(x.unsqueeze(1), w.transpose(1,2)).squeeze(1): exact integer sums. *)
Definition dot (x w : list Z) : Z := zsum (map2 Z.mul x w).
Definition matmul (x : list (list Z)) (w : list (list (list Z))) : list (list Z) :=
  map2 (fun m r => map (dot r) m) w x.

Definition add2 (a b : list (list Z)) : list (list Z) := map2 (map2 Z.add) a b.

(** linear.py:191-264, 266-273: input of shape (batch, in), the result of shape (rows, out). wrc and wtc differ in the
    increment of the index and in the source of the inverted weight bits. torch.cat of no tensors (batch 0) and
    shapes that do not broadcast raise. Sums are exact in float32 below 2^24. *)
Definition pc_step (c : pc_cfg) (s : pc_st) (input : list (list Z)) : result (pc_st * list (list Z)) :=
  let batch := length input in
  if (batch =? 0)%nat then Err RuntimeError else
  if negb (forallb (fun r => (length r =? pc_in c)%nat) input) then Err RuntimeError else
  let w1 := expand batch (wbits (pc_weight c) (pc_rng c) (pc_i1 s)) in
  let i1 := expand batch (pc_i1 s) in
  bind (bcast (length i1) input) (fun x =>
  let nx := map (map (fun b => 1 - b)) x in
  let i1' := add_rows i1 (if pc_wtc c then map (map (fun _ => 1)) x else x) in
  let o1 := matmul x w1 in
  let o1 := match pc_bias c with
            | None => o1
            | Some b => let bbit := map2 (fun v i => bsgen_bit v (pc_rng c) i) b (pc_brdx s) in
                        map (fun r => map2 Z.add r bbit) o1
            end in
  let brdx' := match pc_bias c with None => pc_brdx s | Some _ => map (fun i => i + 1) (pc_brdx s) end in
  match pc_mode c with
  | Unipolar => Ok ({| pc_i1 := i1'; pc_i0 := pc_i0 s; pc_brdx := brdx' |}, o1)
  | Bipolar =>
      if pc_wtc c then
        Ok ({| pc_i1 := i1'; pc_i0 := pc_i0 s; pc_brdx := brdx' |}, add2 o1 (matmul nx (neg3 w1)))
      else
        let w0 := expand batch (neg3 (wbits (pc_weight c) (pc_rng c) (pc_i0 s))) in
        let i0' := add_rows (expand batch (pc_i0 s)) nx in
        Ok ({| pc_i1 := i1'; pc_i0 := i0'; pc_brdx := brdx' |}, add2 o1 (matmul nx w0))
  end).

(** ** FSULinear *)

(** linear.py:80-93: the accumulator's configuration. *)
Definition flin_entry (c : pc_cfg) : Z :=
  Z.of_nat (pc_in c) + match pc_bias c with None => 0 | Some _ => 1 end.
Definition flin_acc_cfg (c : pc_cfg) (scale : option Q) (depth : Z) : fsuadd_cfg :=
  {| fa_mode := pc_mode c;
     fa_scale := Some (match scale with None => inject_Z (flin_entry c) | Some q => q end);
     fa_depth := depth;
     fa_entry := Some (flin_entry c) |}.

(** linear.py:61-63 and 72-93: PC first, then the accumulator. [scale] = hwcfg["scale"]. The assertion compares the
    scale with in_features + bias. *)
Definition flin_new (ext : rng_ext) (in_features out_features : nat) (bias : bool)
           (weight_ext : option (list (list Q))) (bias_ext : option (list Q))
           (weight_init : list (list Q)) (width : nat) (mode_name rng_name : string) (dimr : nat)
           (scale : option Q) (depth : Z) : result (pc_cfg * fsuadd_cfg) :=
  let tc := match rng_parse rng_name with Ok k => is_tc k | Err _ => false end in
  let entry := inject_Z (Z.of_nat in_features + b2z bias) in
  let unscaled := match scale with None => false | Some q => negb (Qeq_bool q entry) end in
  if ((lower mode_name =? "bipolar")%string && unscaled && tc)%bool then Err AssertionError else
  bind (pc_new ext in_features out_features bias weight_ext bias_ext weight_init width mode_name rng_name dimr)
       (fun c => Ok (c, flin_acc_cfg c scale depth)).

(** The accumulator of FSUAdd is a tensor that broadcasts from shape (1) to (rows, out) at the first call
    (add.py:53-59, 96): [None] before the first call. Its scalar attributes are kept per lane. *)
Record flin_st : Type := { fl_pc : pc_st; fl_acc : option (list (list fsuadd_st)) }.
Definition flin_init (c : pc_cfg) : flin_st := {| fl_pc := pc_init c; fl_acc := None |}.

(** linear.py:95-99: forward(input, scale, entry); each lane receives the one-entry column pc.unsqueeze(0). *)
Definition flin_step (c : pc_cfg) (a : fsuadd_cfg) (s : flin_st) (inp : list (list Z) * option Q * option Z)
  : result (flin_st * list (list Z)) :=
  let '(input, scale, entry) := inp in
  bind (pc_step c (fl_pc s) input) (fun r =>
  let '(pc', pc) := r in
  bind (match fl_acc s with
        | None => Ok (map (map (fun _ => fsuadd_init a)) pc)
        | Some acc => bcast (length pc) acc
        end) (fun acc =>
  let lanes := map2 (map2 (fun st p => fsuadd_call a st ([p], scale, entry))) acc pc in
  Ok ({| fl_pc := pc'; fl_acc := Some (map (map fst) lanes) |}, map (map snd) lanes))).
