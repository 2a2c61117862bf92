(** Model of /repo/kernel/rnn.py: FSUMGUCell and HUBMGUCell. Tensors are rectangular nested lists; batch first. *)
From Coq Require Import String.
Require Export Verif.Base Verif.GenModel Verif.AddModel Verif.KernelModel Verif.LinearModel Verif.MetricModel.
Open Scope Z_scope.

(** ** FSUMGUCell.__init__ *)

(** rnn.py:57-114: the constructed parts. [mg_f], [mg_n]: the two FSULinear (count and accumulator configuration);
    [mg_hx], [mg_hrng]: BinGen(hx_buffer) and the sequence of the static multiplier; [mg_nrng]: the sequence of the
    in-stream multiplier, of length 2**depth_ismul. *)
Record mgu_cfg : Type := {
  mg_in : nat;
  mg_hid : nat;
  mg_f : pc_cfg * fsuadd_cfg;
  mg_n : pc_cfg * fsuadd_cfg;
  mg_depth : Z;
  mg_hx : list (list Z);
  mg_hrng : list Z;
  mg_wmul : nat;
  mg_nrng : list Z
}.

(** rnn.py:63-67: weight.size() (AttributeError on None) and bias.size(), the latter only looked at if bias is True. *)
Definition mgu_check_w (r c : nat) (w : option (list (list Q))) : result unit :=
  match w with
  | None => Err AttributeError
  | Some m => if shape2 r c m then Ok tt else Err AssertionError
  end.
Definition mgu_check_b (n : nat) (bias : bool) (b : option (list Q)) : result unit :=
  if bias then
    match b with
    | None => Err AttributeError
    | Some v => if (length v =? n)%nat then Ok tt else Err AssertionError
    end
  else Ok tt.

(** rnn.py:25-114. [ext k]: the random parts seen by the k-th RNG object (0, 1: the linear layers, 2: the multiplier by
    hx_buffer, 3: the in-stream multiplier). The linear layers have scale 1 and external weights (rnn.py:69-82), the
    multiplier by hx_buffer needs hx_buffer (mul.py:54-55). The parsed mode is bipolar in every part. Checks in the
    order of the code. *)
Definition mgu_new (ext : nat -> rng_ext) (input_size hidden_size : nat) (bias : bool)
           (wf : option (list (list Q))) (bf : option (list Q)) (wn : option (list (list Q))) (bn : option (list Q))
           (hx_buffer : option (list (list Q)))
           (width : nat) (mode_name : string) (depth : Z) (depth_ismul : nat) (rng_name : string) (dimr : nat)
  : result mgu_cfg :=
  if negb (lower mode_name =? "bipolar")%string then Err AssertionError else
  let n := (hidden_size + input_size)%nat in
  bind (mgu_check_w hidden_size n wf) (fun _ =>
  bind (mgu_check_w hidden_size n wn) (fun _ =>
  bind (mgu_check_b hidden_size bias bf) (fun _ =>
  bind (mgu_check_b hidden_size bias bn) (fun _ =>
  bind (flin_new (ext 0%nat) n hidden_size bias wf bf [] width mode_name rng_name dimr (Some 1%Q) depth) (fun f =>
  bind (flin_new (ext 1%nat) n hidden_size bias wn bn [] width mode_name rng_name dimr (Some 1%Q) depth) (fun g =>
  bind (rng_parse rng_name) (fun k =>
  match hx_buffer with
  | None => Err AssertionError
  | Some hx =>
      Ok {| mg_in := input_size; mg_hid := hidden_size; mg_f := f; mg_n := g; mg_depth := depth;
            mg_hx := map (map (bingen Bipolar width)) hx;
            mg_hrng := rng_seq (ext 2%nat) k width dimr;
            mg_wmul := depth_ismul;
            mg_nrng := rng_seq (ext 3%nat) k depth_ismul dimr |}
  end))))))).

(** ** FSUMGUCell.forward *)

(** rnn.py:83-90: fg_sigmoid; rnn.py:107-114: hy_add. *)
Definition mgu_sig_cfg (c : mgu_cfg) : fsuadd_cfg :=
  {| fa_mode := Bipolar; fa_scale := None; fa_depth := mg_depth c; fa_entry := None |}.
Definition mgu_hy_cfg (c : mgu_cfg) : fsuadd_cfg :=
  {| fa_mode := Bipolar; fa_scale := Some 1%Q; fa_depth := mg_depth c; fa_entry := Some 3 |}.

(** The modules behind one entry (batch row, hidden unit): fg_sigmoid and fg_hx_mul; fg_ng_mul and hy_add. *)
Notation gate_st := (fsuadd_st * (Z * Z))%type.
Notation out_st := (fsumul_is_st * fsuadd_st)%type.
Definition gate_init (c : mgu_cfg) : gate_st := (fsuadd_init (mgu_sig_cfg c), fsumul_static_init).
Definition out_init (c : mgu_cfg) : out_st := (fsumul_is_init (mg_wmul c), fsuadd_init (mgu_hy_cfg c)).

(** rnn.py:134, 137: fg = sigmoid([fg_in, 1]), fg_hx = fg * hx_buffer. *)
Definition gate_step (c : mgu_cfg) (hxb : Z) (s : gate_st) (fg_in : Z) : gate_st * (Z * Z) :=
  let '(s1, fg) := fsuadd_step (mgu_sig_cfg c) (fst s) [fg_in; 1] in
  let '(s2, fg_hx) := fsumul_static_step Bipolar hxb (mg_hrng c) (snd s) fg in
  ((s1, s2), (fg, fg_hx)).

(** rnn.py:142-144: fg_ng = fg * ng, hy = hy_add([ng, 1 - fg_ng, fg_hx]). *)
Definition out_step (c : mgu_cfg) (s : out_st) (inp : Z * Z * Z) : out_st * (Z * Z) :=
  let '(fg, fg_hx, ng) := inp in
  let '(s1, fg_ng) := fsumul_is_step Bipolar (mg_wmul c) (mg_nrng c) (fst s) (fg, ng) in
  let '(s2, hy) := fsuadd_step (mgu_hy_cfg c) (snd s) [ng; 1 - fg_ng; fg_hx] in
  ((s1, s2), (fg_ng, hy)).

(** The state; the entry modules are created (broadcast) at the first call. *)
Record mgu_st : Type := {
  ms_f : flin_st;
  ms_n : flin_st;
  ms_gate : option (list (list gate_st));
  ms_out : option (list (list out_st))
}.
Definition mgu_init (c : mgu_cfg) : mgu_st :=
  {| ms_f := flin_init (fst (mg_f c)); ms_n := flin_init (fst (mg_n c)); ms_gate := None; ms_out := None |}.

(** The attributes set by forward (fg_in, fg, fg_hx, ng, fg_ng) and its result. *)
Record mgu_obs : Type := {
  mo_fg_in : list (list Z);
  mo_fg : list (list Z);
  mo_fg_hx : list (list Z);
  mo_ng : list (list Z);
  mo_fg_ng : list (list Z);
  mo_hy : list (list Z)
}.

(** torch.cat((a, b), 1). *)
Definition cat1 (a b : list (list Z)) : list (list Z) := map2 (fun x y => x ++ y) a b.

(** A state tensor at a call with [rows] rows: created at the first call. A later call with another number of rows
    always raises in forward: from one row to more in ShiftReg (shiftreg.py:46, assignment of a larger tensor), from more
    to one in torch.cat((fg_hx, input), 1), where fg_hx has the old number of rows, otherwise in the linear layer. *)
Definition state_rows {A : Type} (rows cols : nat) (init : A) (s : option (list (list A))) : result (list (list A)) :=
  match s with
  | None => Ok (repeat (repeat init cols) rows)
  | Some m => if (length m =? rows)%nat then Ok m else Err RuntimeError
  end.

(** hx_buffer broadcast against fg (mul.py:81). If hx_buffer has more rows than the call the result has too many rows and
    torch.cat((fg_hx, input), 1) raises; too many columns raise in the linear layer. *)
Definition hx_rows (c : mgu_cfg) (rows : nat) : result (list (list Z)) :=
  bind (bcast rows (mg_hx c)) (fun m =>
  fold_right (fun r acc => bind (bcast (mg_hid c) r) (fun r' => bind acc (fun a => Ok (r' :: a)))) (Ok []) m).

(** rnn.py:116-145: one call forward(input, hx). *)
Definition mgu_step (c : mgu_cfg) (s : mgu_st) (inp : list (list Z) * list (list Z)) : result (mgu_st * mgu_obs) :=
  let '(input, hx) := inp in
  if negb (forallb (fun r => (length r =? mg_in c)%nat) input) then Err RuntimeError else
  if negb (length input =? length hx)%nat then Err RuntimeError else
  if negb (forallb (fun r => (length r =? mg_hid c)%nat) hx) then Err RuntimeError else
  bind (state_rows (length input) (mg_hid c) (gate_init c) (ms_gate s)) (fun gs =>
  bind (state_rows (length input) (mg_hid c) (out_init c) (ms_out s)) (fun os =>
  bind (flin_step (fst (mg_f c)) (snd (mg_f c)) (ms_f s) (cat1 hx input, None, None)) (fun rf =>
  let '(f', fg_in) := rf in
  bind (hx_rows c (length input)) (fun hxb =>
  let g := map2 (map2 (fun sb x => gate_step c (snd sb) (fst sb) x)) (map2 (map2 pair) gs hxb) fg_in in
  let fg := map (map (fun r => fst (snd r))) g in
  let fg_hx := map (map (fun r => snd (snd r))) g in
  bind (flin_step (fst (mg_n c)) (snd (mg_n c)) (ms_n s) (cat1 fg_hx input, None, None)) (fun rn =>
  let '(n', ng) := rn in
  let o := map2 (map2 (fun st i => out_step c st i)) os
             (map2 (map2 (fun r x => (fst (snd r), snd (snd r), x))) g ng) in
  Ok ({| ms_f := f'; ms_n := n'; ms_gate := Some (map (map fst) g); ms_out := Some (map (map fst) o) |},
      {| mo_fg_in := fg_in; mo_fg := fg; mo_fg_hx := fg_hx; mo_ng := ng;
         mo_fg_ng := map (map (fun r => fst (snd r))) o; mo_hy := map (map (fun r => snd (snd r))) o |})))))).

(** ** HUBMGUCell *)

(** rnn.py:202-208, 214-218: the bits of a source tensor in one cycle. *)
Definition hub_bits (width : nat) (rng : list Z) (src : list (list Q)) (cycle : Z) : list (list Z) :=
  map (map (fun v => bsgen_bit (bingen Bipolar width v) rng cycle)) src.

(** rnn.py:213-220: the calls of the cell, cycle by cycle. *)
Definition hub_calls (width : nat) (irng hrng : list Z) (input hx : list (list Q)) : list (list (list Z) * list (list Z)) :=
  map (fun cy => (hub_bits width irng input cy, hub_bits width hrng hx cy)) (zrange (2 ^ width)).

(** rnn.py:210-211, 221, 223: ProgError over the results, entry by entry; every entry of the first operand is 0 and does
    not influence the value. *)
Definition hub_value (rows cols : nat) (hys : list (list (list Z))) : list (list Q) :=
  map (fun b => map (fun j =>
    match pe_forward Bipolar 1 0 (pe_monitors pe_init (map (fun y => nth j (nth b y []) 0) hys)) with
    | Some (pp, _) => pp
    | None => 0%Q
    end) (seq 0 cols)) (seq 0 rows).

(** rnn.py:193-224. hx None is a zero tensor. [ext] 4 and 5: the sequences of input and hx. *)
Definition hubmgu (ext : nat -> rng_ext) (input_size hidden_size : nat) (bias : bool)
           (wf : option (list (list Q))) (bf : option (list Q)) (wn : option (list (list Q))) (bn : option (list Q))
           (width : nat) (mode_name : string) (depth : Z) (depth_ismul : nat) (rng_name : string) (dimr : nat)
           (input : list (list Q)) (hx : option (list (list Q))) : result (list (list Q)) :=
  let h := match hx with None => repeat (repeat 0%Q hidden_size) (length input) | Some h => h end in
  bind (mgu_new ext input_size hidden_size bias wf bf wn bn (Some h) width mode_name depth depth_ismul rng_name dimr)
       (fun c =>
  bind (rng_parse rng_name) (fun k =>
  let irng := rng_seq (ext 4%nat) k width dimr in
  let hrng := rng_seq (ext 5%nat) k width dimr in
  bind (run_r (mgu_step c) (mgu_init c) (hub_calls width irng hrng input h)) (fun r =>
  Ok (hub_value (length input) hidden_size (map mo_hy (snd r)))))).
