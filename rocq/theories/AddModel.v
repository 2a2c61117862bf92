(** Model of /repo/kernel/add.py (FSUAdd) and /repo/kernel/sigmoid.py, one output lane. *)
Require Export Verif.Base.
Open Scope Z_scope.

(** add.py:22-51: the configuration; [None] is Python's None. *)
Record fsuadd_cfg : Type := {
  fa_mode : mode;
  fa_scale : option Q;
  fa_depth : Z;
  fa_entry : option Z
}.

(** add.py:44, 53-59: the mutable attributes entry, scale_carry, offset, accumulator, first. *)
Record fsuadd_st : Type := {
  fs_entry : option Z;
  fs_scale : Q;
  fs_offset : Q;
  fs_acc : Q;
  fs_first : bool
}.

Definition fsuadd_init (c : fsuadd_cfg) : fsuadd_st :=
  {| fs_entry := fa_entry c; fs_scale := 1%Q; fs_offset := 0%Q; fs_acc := 0%Q; fs_first := true |}.

(** add.py:47, 49. *)
Definition acc_lim (depth : Z) : Q := qpow2 (depth - 2).

(** add.py:62-93: resolution of entry, scale and offset at the first call.
    [size] is input.size()[dima]. *)
Definition fsuadd_resolve (c : fsuadd_cfg) (s : fsuadd_st) (size : Z)
           (scale : option Q) (entry : option Z) : fsuadd_st :=
  if fs_first s then
    let e := match entry with
             | Some e => e
             | None => match fs_entry s with None => size | Some e => e end
             end in
    let sc := match scale with
              | Some q => q
              | None => match fa_scale c with None => inject_Z e | Some q => q end
              end in
    let off := match fa_mode c with
               | Bipolar => ((inject_Z e - sc) / 2)%Q
               | Unipolar => fs_offset s
               end in
    {| fs_entry := Some e; fs_scale := sc; fs_offset := off; fs_acc := fs_acc s; fs_first := false |}
  else s.

(** add.py:95-99 on one lane: [delta] = sum over dima - offset. *)
Definition acc_step (lim scale delta acc : Q) : Q * Z :=
  let acc1 := qclamp (- lim) lim (acc + delta) in
  let output := b2z (qge acc1 scale) in
  (qclamp (- lim) lim (acc1 - inject_Z output * scale)%Q, output).

(** One call of forward(input, scale, entry): the lane's column of bits along dima and the two optional
    runtime arguments (add.py:61-99). *)
Definition fsuadd_call (c : fsuadd_cfg) (s : fsuadd_st)
           (inp : list Z * option Q * option Z) : fsuadd_st * Z :=
  let '(col, scale, entry) := inp in
  let s1 := fsuadd_resolve c s (zlen col) scale entry in
  let delta := (inject_Z (zsum col) - fs_offset s1)%Q in
  let '(acc', output) := acc_step (acc_lim (fa_depth c)) (fs_scale s1) delta (fs_acc s1) in
  ({| fs_entry := fs_entry s1; fs_scale := fs_scale s1; fs_offset := fs_offset s1;
      fs_acc := acc'; fs_first := fs_first s1 |}, output).

(** A call without runtime arguments, as made by every caller in /repo except FSULinear/FSUConv2d
    with explicit arguments. *)
Definition fsuadd_step (c : fsuadd_cfg) (s : fsuadd_st) (col : list Z) : fsuadd_st * Z :=
  fsuadd_call c s (col, None, None).

(** sigmoid.py:35-41: FSUHardsigmoid's adder: scale 2, entry None. *)
Definition hardsigmoid_cfg (m : mode) (depth : Z) : fsuadd_cfg :=
  {| fa_mode := m; fa_scale := Some 2%Q; fa_depth := depth; fa_entry := None |}.
Definition fsuhardsigmoid_init (m : mode) (depth : Z) : fsuadd_st := fsuadd_init (hardsigmoid_cfg m depth).
(** sigmoid.py:43-44. *)
Definition fsuhardsigmoid_step (m : mode) (depth : Z) (s : fsuadd_st) (x : Z) : fsuadd_st * Z :=
  fsuadd_step (hardsigmoid_cfg m depth) s [x; 1].

(** torch.nn.Hardsigmoid: relu6(x+3)/6; HUBHardsigmoid, sigmoid.py:51-56. *)
Definition torch_hardsigmoid (x : Q) : Q := (qclamp 0 6 (x + 3) / 6)%Q.
Definition hubhardsigmoid (scale x : Q) : Q := torch_hardsigmoid (x * scale)%Q.

(** torch.nn.Hardtanh defaults; HUBHardtanh (tanh.py:11-17); HUBReLU (relu.py:47-48). *)
Definition hubhardtanh (x : Q) : Q := qclamp (-1) 1 x.
Definition hubrelu (scale x : Q) : Q := qclamp 0 scale x.
(** FSUHardtanh (tanh.py:3-8) is torch.nn.Identity. *)
Definition fsuhardtanh (x : Z) : Z := x.
