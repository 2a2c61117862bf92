(** The element types (dtypes) of torch that swcfg["btype"], swcfg["stype"] and swcfg["rtype"] select, and the modules of
    /repo whose counters, sums or binary numbers are kept in them. The other model files treat these numbers as
    mathematical integers; here every torch operation ends with the conversion to the type of its result. *)
Require Export Verif.Base Verif.KernelModel Verif.ShuffleModel Verif.GenModel Verif.AddModel Verif.LinearModel Verif.ConvModel.
Open Scope Z_scope.

(** [SInt b]: two's complement, b bits; [UInt b]: b bits without a sign; [Flt p emax]: binary floating point with p
    significant bits and largest exponent emax. *)
Inductive dtype : Type :=
| SInt (b : nat)
| UInt (b : nat)
| Flt (p emax : nat).

(** The types of torch 1.x with arithmetic on a CPU. *)
Definition t_uint8 : dtype := UInt 8.
Definition t_int8 : dtype := SInt 8.
Definition t_int16 : dtype := SInt 16.
Definition t_int32 : dtype := SInt 32.
Definition t_int64 : dtype := SInt 64.
Definition t_float16 : dtype := Flt 11 15.
Definition t_bfloat16 : dtype := Flt 8 127.
Definition t_float32 : dtype := Flt 24 127.
Definition t_float64 : dtype := Flt 53 1023.
Definition torch_dtypes : list dtype :=
  [t_uint8; t_int8; t_int16; t_int32; t_int64; t_float16; t_bfloat16; t_float32; t_float64].

(** Rounding of an integer to p significant bits, to nearest, ties to even. *)
Definition fl (p : nat) (z : Z) : Z :=
  let e := Z.max 0 (Z.log2 (Z.abs z) + 1 - Z.of_nat p) in
  let q := z / 2 ^ e in
  let r := z mod 2 ^ e in
  (q + b2z ((2 * r >? 2 ^ e) || ((2 * r =? 2 ^ e) && Z.odd q))) * 2 ^ e.

(** The value of a torch operation, or of [.type(dt)], whose exact result is the integer z. Integer types wrap. The
    conversion of a float outside the range of an integer type is not defined by C++; wrapping is what two's complement
    hardware gives for the values met here. Overflow of a float type to infinity is not modelled: the statements keep
    below 2^emax. *)
Definition cast (dt : dtype) (z : Z) : Z :=
  match dt with
  | SInt b => (z + p2 (b - 1)) mod p2 b - p2 (b - 1)
  | UInt b => z mod p2 b
  | Flt p _ => fl p z
  end.

(** [x.clamp(lo, hi)] with Python numbers: the bounds become numbers of the type of x (torch raises an exception when
    they do not fit an integer type; the statements exclude that). *)
Definition clamp_dt (dt : dtype) (lo hi x : Z) : Z := zclamp (cast dt lo) (cast dt hi) x.

(** A constant written into a float32 tensor and then converted, [torch.zeros(1).fill_(z).type(dt)] or
    [torch.Tensor([z]).type(dt)]. *)
Definition const_dt (dt : dtype) (z : Z) : Z := cast dt (cast t_float32 z).

(** FSUReLU, relu.py:26-40; depth = S d. Lines 26-27 take the type of the counter from swcfg["stype"] and the type of the
    output from swcfg["btype"], so [dt] is swcfg["stype"]. The comparison of line 35 and the clamp of line 39 are with
    Python integers; the stream is computed in int8, where all values are exact. *)
Definition relu_dt_init (dt : dtype) (d : nat) : Z := const_dt dt (p2 d).
Definition relu_dt_step (dt : dtype) (d : nat) (acc : Z) (input : Z) : Z * Z :=
  let buf_max := p2 (S d) - 1 in
  let buf_half := p2 d in
  let half_prob_flag := b2z (acc >=? buf_half) in
  let output := Z.lor input (1 - half_prob_flag) in
  (clamp_dt dt 0 buf_max (cast dt (acc + cast dt (output * 2 - 1))), output).

(** [input.mul(2).sub(1)] in the type of the input. *)
Definition pm1_dt (it : dtype) (input : Z) : Z := cast it (cast it (input * 2) - 1).

(** FSUSignAbs, signabs.py:29-40; depth = S d. [it]: the type of the input tensor, [bt]: swcfg["btype"]. Line 36 computes
    +-1 in the type of the input before it converts to btype. *)
Definition signabs_dt_init (bt : dtype) (d : nat) : Z := const_dt bt (p2 d).
Definition signabs_dt_step (it bt : dtype) (d : nat) (acc : Z) (input : Z) : Z * (Z * Z) :=
  let buf_max := const_dt bt (p2 (S d) - 1) in
  let buf_half := const_dt bt (p2 d) in
  let acc' := clamp_dt bt 0 buf_max (cast bt (acc + cast bt (pm1_dt it input))) in
  let sign := b2z (acc' <? buf_half) in
  let output := Z.lxor sign input in
  (acc', (sign, output)).

(** SkewedSync, shuffle.py:29-42. [st]: swcfg["stype"], also the type of both input streams; [bt]: swcfg["btype"]. *)
Definition sync_dt_step (st bt : dtype) (depth : nat) (cnt : Z) (inp : Z * Z) : Z * (Z * Z) :=
  let '(in_1, in_2) := inp in
  let upper := const_dt bt (p2 depth - 1) in
  let sum_in := cast st (in_1 + in_2) in
  let cnt_not_min := b2z (negb (cnt =? 0)) in
  let cnt_not_max := b2z (negb (cnt =? upper)) in
  let swap := cast st (cast st (cnt_not_min * cast st (1 - in_1)) + cast st (cast st (0 - cnt_not_max) * in_1)) in
  let out_1 := cast st (in_1 + cast st (b2z (sum_in =? 1) * swap)) in
  let delta := cast bt (b2z (sum_in =? 1) * cast bt (pm1_dt st in_1)) in
  let cnt' := clamp_dt bt 0 upper (cast bt (cnt + delta)) in
  (cnt', (out_1, in_2)).

(** Bi2Uni, shuffle.py:70-82, with btype [bt]; depth = d2 + 2. As in ShuffleModel.v the clamp of line 81 has no effect. *)
Definition bi2uni_dt_step (bt : dtype) (d2 : nat) (acc : Z) (input : Z) : Z * Z :=
  let acc1 := clamp_dt bt (- p2 d2) (p2 d2) (cast bt (acc + cast bt (cast bt (cast bt input * 2) - 1))) in
  let output := cast bt (b2z (acc1 >=? 1)) in
  (cast bt (acc1 - output), output).

(** [torch.sum]: over an integer type the result is an int64 (the sums here are far below 2^63); over a float type it is
    accumulated in at least float32 and then converted (single rounding; the sums here are below 2^24). *)
Definition sum_dt (bt : dtype) (l : list Z) : Z :=
  match bt with Flt _ _ => cast bt (zsum l) | _ => zsum l end.

(** Uni2Bi, shuffle.py:110-123, with btype [bt]; depth = d2 + 2. For an integer btype line 120 adds an int64 sum, so the
    accumulator becomes int64 with the first call (assignment to .data) and no later operation can wrap. *)
Definition uni2bi_dt_step (bt : dtype) (d2 : nat) (acc : Z) (input : Z) : Z * Z :=
  let wide := match bt with Flt _ _ => bt | _ => t_int64 end in
  let acc1 := clamp_dt wide (- p2 d2) (p2 d2) (cast wide (acc + sum_dt bt [cast bt input; cast bt 1])) in
  let output := cast bt (b2z (acc1 >=? 2)) in
  (cast wide (acc1 - cast bt (output * 2)), output).

(** BinGen, gen.py:141, with rtype [rt]: line 141 rounds and converts. *)
Definition bingen_dt (rt : dtype) (m : mode) (width : nat) (source : Q) : Z := cast rt (bingen m width source).

(** RNG, gen.py:71, with rtype [rt]. *)
Definition rng_seq_dt (rt : dtype) (ext : rng_ext) (k : rng_kind) (width dimr : nat) : list Z :=
  map (cast rt) (rng_seq ext k width dimr).

(** FSULinearPC.forward, linear.py:266-273, and FSUConv2dPC.forward, conv.py:336-343, with stype [st]: the count (a float32
    tensor) is converted. FSULinear and FSUConv2d themselves insist on torch.float. *)
Definition pc_dt_step (st : dtype) (c : pc_cfg) (s : pc_st) (input : list (list Z)) : result (pc_st * list (list Z)) :=
  bind (pc_step c s input) (fun r => Ok (fst r, map (map (cast st)) (snd r))).
Definition conv_dt_step (st : dtype) (c : conv_cfg) (s : conv_st) (input : list (image Z))
  : result (conv_st * list (image Z)) :=
  bind (conv_step c s input) (fun r => Ok (fst r, map (map (map (map (cast st)))) (snd r))).

(** FSUAdd.forward, add.py:95-99, with btype [bt]: the column is converted before the sum; accumulator, scale and offset are
    float32 tensors whatever the btype (add.py:54-58), here exact rationals as in AddModel.v. *)
Definition fsuadd_dt_step (bt : dtype) (c : fsuadd_cfg) (s : fsuadd_st) (col : list Z) : fsuadd_st * Z :=
  let s1 := fsuadd_resolve c s (zlen col) None None in
  let delta := (inject_Z (sum_dt bt (map (cast bt) col)) - fs_offset s1)%Q in
  let '(acc', output) := acc_step (acc_lim (fa_depth c)) (fs_scale s1) delta (fs_acc s1) in
  ({| fs_entry := fs_entry s1; fs_scale := fs_scale s1; fs_offset := fs_offset s1;
      fs_acc := acc'; fs_first := fs_first s1 |}, output).
