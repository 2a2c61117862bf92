(** Storage: tensors as references. A tensor object points into a storage; [t.data = u] makes t point into the storage of u, [t.add_(..)]
    and the other methods with a trailing underscore write into the storage, [t[i]] is an object on the same storage, [t.type(d)] is t
    itself when t has the dtype d already, and every other expression makes a new storage. The forward functions below follow the
    statements of /repo/{kernel,stream,metric}; one entry per tensor (the modules are elementwise: TensorProof.v), and the temporaries
    inside one expression are not given objects, since nothing can refer to them afterwards. *)
Require Export Verif.Base Verif.GenModel Verif.AddModel Verif.KernelModel Verif.ShuffleModel Verif.MetricModel Verif.UtilsModel.
Open Scope Z_scope.

(** The dtypes that matter: the one of a register, and any other. *)
Inductive dty : Type := Int8 | Long | Flt.
Definition dty_eqb (a b : dty) : bool := match a, b with Int8, Int8 | Long, Long | Flt, Flt => true | _, _ => false end.

(** Contents: one integer, one rational (None: nan), a list of integers (along a first dimension), or a list of rationals (weights). *)
Inductive data : Type := Int (z : Z) | Rat (q : option Q) | Vec (l : list Z) | Qs (l : list Q).
Definition toZ (d : data) : Z := match d with Int z => z | _ => 0 end.
Definition toQ (d : data) : Q := match d with Rat (Some q) => q | Int z => inject_Z z | _ => 0%Q end.
Definition toL (d : data) : list Z := match d with Vec l => l | Int z => [z] | _ => [] end.
Definition toQs (d : data) : list Q := match d with Qs l => l | Rat (Some q) => [q] | Vec l => map inject_Z l | Int z => [inject_Z z] | _ => [] end.

(** An object: its storage, the index when it is a view t[i], its dtype. *)
Record obj : Type := { o_st : nat; o_row : option nat; o_dt : dty }.
Record heap : Type := { h_obj : nat -> obj; h_st : nat -> data; h_nobj : nat; h_nst : nat }.
Definition upd {A : Type} (f : nat -> A) (k : nat) (v : A) : nat -> A := fun x => if Nat.eqb x k then v else f x.
Fixpoint set_nth (l : list Z) (i : nat) (v : Z) : list Z :=
  match l, i with [], _ => [] | _ :: r, O => v :: r | x :: r, S j => x :: set_nth r j v end.

(** The content of an object. *)
Definition rd (h : heap) (o : nat) : data :=
  let b := h_obj h o in
  match o_row b with None => h_st h (o_st b) | Some i => Int (nth i (toL (h_st h (o_st b))) 0) end.

Definition M (A : Type) : Type := heap -> heap * A.
Definition ret {A : Type} (a : A) : M A := fun h => (h, a).
Definition bindM {A B : Type} (m : M A) (f : A -> M B) : M B := fun h => let '(h', a) := m h in f a h'.
Notation "'let*' x ':=' m 'in' k" := (bindM m (fun x => k)) (at level 200, x name, m at level 200, k at level 200).
Notation "'run*' m ';;' k" := (bindM m (fun _ => k)) (at level 200, m at level 200, k at level 200).

(** Reading an operand. *)
Definition look (o : nat) : M data := fun h => (h, rd h o).
(** The result of an expression: a new object on a new storage. *)
Definition alloc (d : data) (t : dty) : M nat := fun h =>
  ({| h_obj := upd (h_obj h) (h_nobj h) {| o_st := h_nst h; o_row := None; o_dt := t |};
      h_st := upd (h_st h) (h_nst h) d; h_nobj := S (h_nobj h); h_nst := S (h_nst h) |}, h_nobj h).
(** t[i] for an integer i: a new object on the same storage. *)
Definition view (o : nat) (i : nat) : M nat := fun h =>
  ({| h_obj := upd (h_obj h) (h_nobj h) {| o_st := o_st (h_obj h o); o_row := Some i; o_dt := o_dt (h_obj h o) |};
      h_st := h_st h; h_nobj := S (h_nobj h); h_nst := h_nst h |}, h_nobj h).
(** t.copy_(d) and the other in-place methods: the storage is overwritten. *)
Definition write (o : nat) (d : data) : M unit := fun h =>
  let b := h_obj h o in
  ({| h_obj := h_obj h;
      h_st := upd (h_st h) (o_st b) (match o_row b with None => d | Some i => Vec (set_nth (toL (h_st h (o_st b))) i (toZ d)) end);
      h_nobj := h_nobj h; h_nst := h_nst h |}, tt).
(** t.data = u: the object t points where u points. *)
Definition set_data (o p : nat) : M unit := fun h =>
  ({| h_obj := upd (h_obj h) o (h_obj h p); h_st := h_st h; h_nobj := h_nobj h; h_nst := h_nst h |}, tt).
(** t.type(d): no copy when the dtype is the same. Casts keep the values here (dtypes: DtypeModel.v). *)
Definition type_ (o : nat) (t : dty) : M nat := fun h =>
  if dty_eqb (o_dt (h_obj h o)) t then (h, o) else alloc (rd h o) t h.

(** ** Bi2Uni and Uni2Bi, shuffle.py:70, 76-82 and 110, 116-123; the register accumulator. *)
Definition bi2uni_new (btype : dty) : M nat := alloc (Int 0) btype.
Definition bi2uni_fwd (d2 : nat) (btype stype : dty) (acc input : nat) : M nat :=
  let* x := look input in let* a := look acc in
  let* sum := alloc (Int (zclamp (- p2 d2) (p2 d2) (toZ a + (toZ x * 2 - 1)))) btype in
  run* set_data acc sum ;;
  let* a1 := look acc in
  let* output := alloc (Int (b2z (toZ a1 >=? 1))) btype in
  let* o := look output in
  run* write acc (Int (toZ a1 - toZ o)) ;;
  type_ output stype.
Definition uni2bi_new (btype : dty) : M nat := alloc (Int 0) btype.
Definition uni2bi_fwd (d2 : nat) (btype stype : dty) (acc input : nat) : M nat :=
  let* x := look input in
  let* input_stack := alloc (Vec [toZ x; 1]) btype in
  let* xs := look input_stack in let* a := look acc in
  let* sum := alloc (Int (zclamp (- p2 d2) (p2 d2) (toZ a + zsum (toL xs)))) btype in
  run* set_data acc sum ;;
  let* a1 := look acc in
  let* output := alloc (Int (b2z (toZ a1 >=? 2))) btype in
  let* o := look output in
  run* write acc (Int (toZ a1 - toZ o * 2)) ;;
  type_ output stype.

(** ** SkewedSync, shuffle.py:29-42 (one entry: the shapes agree from the first call on); the second output is the second input. *)
Definition sync_new (btype : dty) : M nat := alloc (Int 0) btype.
Definition sync_fwd (depth : nat) (stype : dty) (cnt in_1 in_2 : nat) : M (nat * nat) :=
  let upper := p2 depth - 1 in
  let* x := look in_1 in let* y := look in_2 in let* c := look cnt in
  let* sum_in := alloc (Int (toZ x + toZ y)) stype in
  let* s := look sum_in in
  let cnt_not_min := b2z (negb (toZ c =? 0)) in
  let cnt_not_max := b2z (negb (toZ c =? upper)) in
  let* out_1 := alloc (Int (toZ x + b2z (toZ s =? 1) * (cnt_not_min * (1 - toZ x) + (0 - cnt_not_max) * toZ x))) stype in
  run* write cnt (Int (toZ c + b2z (toZ s =? 1) * (toZ x * 2 - 1))) ;;
  let* c1 := look cnt in
  run* write cnt (Int (zclamp 0 upper (toZ c1))) ;;
  ret (out_1, in_2).

(** ** FSUSignAbs, signabs.py:31, 33-39, and FSUReLU, relu.py:31, 33-40; depth = S d. *)
Definition signabs_new (d : nat) (btype : dty) : M nat := alloc (Int (p2 d)) btype.
Definition signabs_fwd (d : nat) (btype stype : dty) (acc input : nat) : M (nat * nat) :=
  let* x := look input in let* a := look acc in
  let* sum := alloc (Int (zclamp 0 (p2 (S d) - 1) (toZ a + (toZ x * 2 - 1)))) btype in
  run* set_data acc sum ;;
  let* a1 := look acc in
  let* sign := alloc (Int (b2z (toZ a1 <? p2 d))) Int8 in
  let* s := look sign in
  let* input_int8 := type_ input Int8 in
  let* xi := look input_int8 in
  let* output := alloc (Int (Z.lxor (toZ s) (toZ xi))) Int8 in
  let* sign_out := type_ sign stype in
  let* abs_out := type_ output stype in
  ret (sign_out, abs_out).
Definition relu_new (d : nat) (btype : dty) : M nat := alloc (Int (p2 d)) btype.
Definition relu_fwd (d : nat) (btype stype : dty) (acc input : nat) : M nat :=
  let* a := look acc in
  let* input_int8 := type_ input Int8 in
  let* x := look input_int8 in
  let* output := alloc (Int (Z.lor (toZ x) (1 - b2z (toZ a >=? p2 d)))) Int8 in
  let* o := look output in
  let* sum := alloc (Int (zclamp 0 (p2 (S d) - 1) (toZ a + (toZ o * 2 - 1)))) btype in
  run* set_data acc sum ;;
  type_ output stype.

(** ** JKFF, jkff.py:17, 19-31: the output is the register itself, cast. *)
Definition jkff_new : M nat := alloc (Int 0) Int8.
Definition jkff_fwd (stype : dty) (jkff J K : nat) : M nat :=
  let* j := look J in let* k := look K in let* q := look jkff in
  let j0 := b2z (toZ j =? 0) in
  let j1 := 1 - j0 in
  let k0 := b2z (toZ k =? 0) in
  let k1 := 1 - k0 in
  let* next := alloc (Int (Z.land j0 k0 * toZ q + Z.land j1 k0 * 1 + Z.land j0 k1 * 0 + Z.land j1 k1 * (1 - toZ q))) Int8 in
  run* set_data jkff next ;;
  type_ jkff stype.

(** ** ShiftReg, shiftreg.py:26-27, 29-53. [first] is the Python attribute. The first output is the view sr[index] (line 40). Line 45
    writes through sr.data[entry-1]. *)
Definition sr_new (entry : nat) (stype : dty) : M nat := alloc (Vec (shiftreg_init entry)) stype.
Definition sr_fwd (entry : nat) (stype : dty) (sr : nat) (first : bool) (input : nat) (mask : option nat) (index : nat) : M (bool * (nat * nat)) :=
  let* x := look input in
  run* (if first then let* rep := alloc (Vec (repeat (toZ x) entry)) stype in
                      run* set_data sr rep ;; write sr (Vec (shiftreg_init entry)) else ret tt) ;;
  let* out := view sr index in
  let* s := look sr in
  let* cnt := alloc (Int (zsum (toL s))) stype in
  run* match mask with
  | None =>
      let* rolled := alloc (Vec (roll_m1 (toL s))) stype in
      run* set_data sr rolled ;;
      let* s1 := look sr in
      write sr (Vec (set_last (toL s1) (toZ x)))
  | Some mk =>
      let* m := look mk in
      let* sr_shift := alloc (Vec (roll_m1 (toL s))) stype in
      let* s1 := look sr_shift in
      run* write sr_shift (Vec (set_last (toL s1) (toZ x))) ;;
      let* sr_no_shift := alloc (Vec (toL s)) stype in
      let* a := look sr_shift in let* b := look sr_no_shift in
      let* new := alloc (Vec (map2 (fun u v => toZ m * u + (1 - toZ m) * v) (toL a) (toL b))) stype in
      set_data sr new
  end ;;
  ret (false, (out, cnt)).

(** ** BinGen, gen.py:129, 135-141: in unipolar mode the Parameter points into the storage of the source until line 140. *)
Definition bingen_new (m : mode) (width : nat) (rtype : dty) (source : nat) : M nat :=
  let* binary := alloc (Qs []) Flt in
  run* match m with
  | Unipolar => set_data binary source
  | Bipolar => let* s := look source in let* half := alloc (Qs (map (fun q => (q + 1) / 2)%Q (toQs s))) Flt in set_data binary half
  end ;;
  let* b := look binary in
  let* scaled := alloc (Qs (map (fun q => q * inject_Z (p2 width))%Q (toQs b))) Flt in
  run* set_data binary scaled ;;
  let* b1 := look binary in
  let* rounded := alloc (Vec (map qround (toQs b1))) Flt in
  let* cast := type_ rounded rtype in
  run* set_data binary cast ;;
  ret binary.

(** ** FSUMul, static: mul.py:59-67, 78-92, 107-108; BSGen (gen.py:174-175) is the expression bsgen_bit. Registers: source_gen, rng_idx,
    rng_idx_inv (unused in unipolar mode). *)
Definition mul_new (m : mode) (width : nat) (rtype : dty) (in_1_prob : nat) : M (nat * nat * nat) :=
  let* source_gen := bingen_new m width rtype in_1_prob in
  let* rng_idx := alloc (Int 0) Long in
  let* rng_idx_inv := alloc (Int 0) Long in
  ret (source_gen, rng_idx, rng_idx_inv).
Definition mul_fwd (m : mode) (rng : list Z) (stype : dty) (self : nat * nat * nat) (in_0 : nat) : M nat :=
  let '(source_gen, rng_idx, rng_idx_inv) := self in
  let* x := look in_0 in let* b := look source_gen in let* i := look rng_idx in
  let* path := alloc (Int (Z.land (toZ x) (bsgen_bit (hd 0 (toL b)) rng (toZ i)))) Int8 in
  let* i1 := alloc (Int (toZ i + toZ x)) Long in
  run* set_data rng_idx i1 ;;
  match m with
  | Unipolar => type_ path stype
  | Bipolar =>
      let* j := look rng_idx_inv in
      let* path_inv := alloc (Int (Z.land (1 - toZ x) (1 - bsgen_bit (hd 0 (toL b)) rng (toZ j)))) Int8 in
      let* j1 := alloc (Int (toZ j + (1 - toZ x))) Long in
      run* set_data rng_idx_inv j1 ;;
      let* p := look path in let* q := look path_inv in
      let* both := alloc (Int (Z.lor (toZ p) (toZ q))) Int8 in
      type_ both stype
  end.

(** ** FSUAdd, add.py:53-59, 61-99. Registers scale_carry, offset, accumulator; [entry] and [first] are Python attributes; the input is
    the column along dima; no runtime arguments. *)
Definition add_new : M (nat * nat * nat) :=
  let* scale_carry := alloc (Rat (Some 1%Q)) Flt in
  let* offset := alloc (Rat (Some 0%Q)) Flt in
  let* accumulator := alloc (Rat (Some 0%Q)) Flt in
  ret (scale_carry, offset, accumulator).
Definition add_fwd (c : fsuadd_cfg) (btype stype : dty) (self : nat * nat * nat) (attr : option Z * bool) (input : nat) : M ((option Z * bool) * nat) :=
  let '(scale_carry, offset, accumulator) := self in
  let '(entry, first) := attr in
  let lim := acc_lim (fa_depth c) in
  let* x := look input in
  let* attr' := (if first then
    let e := match entry with None => zlen (toL x) | Some e => e end in
    run* write scale_carry (Rat (Some (match fa_scale c with None => inject_Z e | Some q => q end))) ;;
    let* sc := look scale_carry in
    run* match fa_mode c with
    | Bipolar => let* off := alloc (Rat (Some ((inject_Z e - toQ sc) / 2)%Q)) Flt in set_data offset off
    | Unipolar => ret tt
    end ;;
    ret (Some e, false) else ret (entry, first)) in
  let* off := look offset in let* a := look accumulator in let* sc := look scale_carry in
  let* sum := alloc (Rat (Some (qclamp (- lim) lim (toQ a + (inject_Z (zsum (toL x)) - toQ off))))) Flt in
  run* set_data accumulator sum ;;
  let* a1 := look accumulator in
  let* output := alloc (Int (b2z (qge (toQ a1) (toQ sc)))) btype in
  let* o := look output in
  run* write accumulator (Rat (Some (toQ a1 - inject_Z (toZ o) * toQ sc)%Q)) ;;
  let* a2 := look accumulator in
  run* write accumulator (Rat (Some (qclamp (- lim) lim (toQ a2)))) ;;
  let* out := type_ output stype in
  ret (attr', out).

(** ** Correlation, metric.py:11-16, 18-30, 32-53. *)
Record corr_regs : Type := { cr_d : nat; cr_c : nat; cr_b : nat; cr_a : nat; cr_len : nat; cr_in1d : nat }.
Definition corr_new : M corr_regs :=
  let* d := alloc (Int 0) Flt in let* c := alloc (Int 0) Flt in let* b := alloc (Int 0) Flt in let* a := alloc (Int 0) Flt in
  let* len := alloc (Int 0) Flt in let* in_1_d := alloc (Int 0) Flt in
  ret {| cr_d := d; cr_c := c; cr_b := b; cr_a := a; cr_len := len; cr_in1d := in_1_d |}.
Definition add_to (o : nat) (z : Z) : M unit := let* v := look o in write o (Int (toZ v + z)).
Definition corr_mon (r : corr_regs) (in_1 : nat) (in_2 : option nat) : M unit :=
  let* second := match in_2 with
    | Some o => ret o
    | None =>
        let* v := look (cr_in1d r) in
        let* c := alloc v Flt in
        let* x := look in_1 in
        let* k := alloc x Flt in
        run* set_data (cr_in1d r) k ;; ret c
    end in
  let* x := look in_1 in let* y := look second in
  let x0 := b2z (toZ x =? 0) in let x1 := 1 - x0 in
  let y0 := b2z (toZ y =? 0) in let y1 := 1 - y0 in
  run* add_to (cr_d r) (x0 * y0) ;; run* add_to (cr_c r) (x0 * y1) ;; run* add_to (cr_b r) (x1 * y0) ;; run* add_to (cr_a r) (x1 * y1) ;;
  add_to (cr_len r) 1.
Definition corr_fwd (r : corr_regs) : M nat :=
  let* d := look (cr_d r) in let* c := look (cr_c r) in let* b := look (cr_b r) in let* a := look (cr_a r) in
  let* len := look (cr_len r) in let* in_1_d := look (cr_in1d r) in
  alloc (Rat (Some (corr_forward {| co_d := toZ d; co_c := toZ c; co_b := toZ b; co_a := toZ a; co_len := toZ len; co_in1d := toZ in_1_d |}))) Flt.

(** ** ProgError, metric.py:77-85, 87-89, 91-96: forward returns the Parameters pp and pe themselves. *)
Record pe_regs : Type := { pr_source : nat; pr_cycle : nat; pr_one : nat; pr_pp : nat; pr_pe : nat }.
Definition progerr_new (scale : Q) (source : nat) : M pe_regs :=
  let* s := look source in
  let* src := alloc (Rat (Some (pe_source scale (toQ s)))) Flt in
  let* cycle := alloc (Int 0) Flt in let* one := alloc (Int 0) Flt in
  let* pp := alloc (Rat (Some 0%Q)) Flt in let* pe := alloc (Rat (Some 0%Q)) Flt in
  ret {| pr_source := src; pr_cycle := cycle; pr_one := one; pr_pp := pp; pr_pe := pe |}.
Definition progerr_mon (r : pe_regs) (in_1 : nat) : M unit :=
  let* x := look in_1 in let* c := look (pr_one r) in
  let* sum := alloc (Int (toZ c + toZ x)) Flt in
  run* set_data (pr_one r) sum ;;
  add_to (pr_cycle r) 1.
Definition oq (f : Q -> Q) (d : data) : data := match d with Rat (Some q) => Rat (Some (f q)) | _ => Rat None end.
Definition progerr_fwd (m : mode) (r : pe_regs) : M (nat * nat) :=
  let* one := look (pr_one r) in let* cyc := look (pr_cycle r) in
  let* quot := alloc (if toZ cyc =? 0 then Rat None else Rat (Some (inject_Z (toZ one) / inject_Z (toZ cyc))%Q)) Flt in
  run* set_data (pr_pp r) quot ;;
  run* match m with
  | Bipolar => let* p := look (pr_pp r) in let* b := alloc (oq (fun q => q * 2 - 1)%Q p) Flt in set_data (pr_pp r) b
  | Unipolar => ret tt
  end ;;
  let* p := look (pr_pp r) in let* s := look (pr_source r) in
  let* e := alloc (oq (fun q => q - toQ s)%Q p) Flt in
  run* set_data (pr_pe r) e ;;
  ret (pr_pp r, pr_pe r).

(** ** Layers with outside weights. HUBLinear, FXPLinear, TLUTLinear (linear.py:349, 541, 704) and their convolutions (conv.py:433, 569,
    701): the Parameter made by the constructor of the base class is pointed at weight_ext (bias_ext likewise). *)
Definition hub_new (weight_ext : nat) : M nat :=
  let* weight := alloc (Qs []) Flt in
  run* set_data weight weight_ext ;;
  ret weight.
(** FSULinear and FSUConv2d (linear.py:165, conv.py:187): the Parameter is pointed at the result of BinGen. *)
Definition fsu_new (m : mode) (width : nat) (rtype : dty) (weight_ext : nat) : M nat :=
  let* weight := alloc (Qs []) Flt in
  let* binary := bingen_new m width rtype weight_ext in
  run* set_data weight binary ;;
  ret weight.
(** forward: [f] is the value it computes from the contents of weight and input. *)
Definition layer_fwd (f : data -> data -> data) (weight input : nat) : M nat :=
  let* w := look weight in let* x := look input in alloc (f w x) Flt.
(** NN_SC_Weight_Clipper.__call__ on the weight (utils.py:26-28, 36-59): every method called in [clipping] writes in place. The value is
    [clipping] of UtilsModel.v; nothing is written when it raises or leaves the tensor alone. *)
Definition clip_value (m : mode) (meth : clip_method) (bitwidth : nat) (w : list Q) : list Q :=
  match clipping m meth bitwidth w with Ok (Some w') => w' | _ => w end.
Definition clip_weight (m : mode) (meth : clip_method) (bitwidth : nat) (weight : nat) : M unit :=
  let* w := look weight in write weight (Qs (clip_value m meth bitwidth (toQs w))).

(** ** Calls as the client makes them: objects in, objects out. A call with the wrong number of tensors raises TypeError and does
    nothing. The attributes are the registers together with the Python attributes. *)
Record pymod (Arg : Type) : Type := {
  pm_attr : Type;
  pm_new : list nat -> M pm_attr;
  pm_fwd : pm_attr -> Arg -> list nat -> M (pm_attr * list nat)
}.
Arguments pm_attr {Arg}. Arguments pm_new {Arg}. Arguments pm_fwd {Arg}.
Definition keep {A : Type} (a : A) (m : M nat) : M (A * list nat) := let* o := m in ret (a, [o]).
Definition keep2 {A : Type} (a : A) (m : M (nat * nat)) : M (A * list nat) := let* p := m in ret (a, [fst p; snd p]).
Definition one_in {A : Type} (a : A) (ks : list nat) (f : nat -> M (A * list nat)) : M (A * list nat) :=
  match ks with [x] => f x | _ => ret (a, []) end.
Definition two_in {A : Type} (a : A) (ks : list nat) (f : nat -> nat -> M (A * list nat)) : M (A * list nat) :=
  match ks with [x; y] => f x y | _ => ret (a, []) end.
Definition bi2uni_py (d2 : nat) (btype stype : dty) : pymod unit :=
  {| pm_new := fun _ => bi2uni_new btype; pm_fwd := fun r _ ks => one_in r ks (fun x => keep r (bi2uni_fwd d2 btype stype r x)) |}.
Definition uni2bi_py (d2 : nat) (btype stype : dty) : pymod unit :=
  {| pm_new := fun _ => uni2bi_new btype; pm_fwd := fun r _ ks => one_in r ks (fun x => keep r (uni2bi_fwd d2 btype stype r x)) |}.
Definition sync_py (depth : nat) (btype stype : dty) : pymod unit :=
  {| pm_new := fun _ => sync_new btype; pm_fwd := fun r _ ks => two_in r ks (fun x y => keep2 r (sync_fwd depth stype r x y)) |}.
Definition signabs_py (d : nat) (btype stype : dty) : pymod unit :=
  {| pm_new := fun _ => signabs_new d btype; pm_fwd := fun r _ ks => one_in r ks (fun x => keep2 r (signabs_fwd d btype stype r x)) |}.
Definition relu_py (d : nat) (btype stype : dty) : pymod unit :=
  {| pm_new := fun _ => relu_new d btype; pm_fwd := fun r _ ks => one_in r ks (fun x => keep r (relu_fwd d btype stype r x)) |}.
Definition jkff_py (stype : dty) : pymod unit :=
  {| pm_new := fun _ => jkff_new; pm_fwd := fun r _ ks => two_in r ks (fun x y => keep r (jkff_fwd stype r x y)) |}.
(** The argument is index; a second tensor is the mask. *)
Definition sr_py (entry : nat) (stype : dty) : pymod nat :=
  {| pm_new := fun _ => let* r := sr_new entry stype in ret (r, true);
     pm_fwd := fun a index ks =>
       let go x mask := let* p := sr_fwd entry stype (fst a) (snd a) x mask index in ret ((fst a, fst p), [fst (snd p); snd (snd p)]) in
       match ks with [x] => go x None | [x; mask] => go x (Some mask) | _ => ret (a, []) end |}.
Definition mul_py (m : mode) (width : nat) (rng : list Z) (rtype stype : dty) : pymod unit :=
  {| pm_new := fun ks : list nat => match ks with [p] => let* r := mul_new m width rtype p in ret (Some r) | _ => ret None end;
     pm_fwd := fun a _ ks => match a with Some r => one_in a ks (fun x => keep a (mul_fwd m rng stype r x)) | None => ret (a, []) end |}.
Definition add_py (c : fsuadd_cfg) (btype stype : dty) : pymod unit :=
  {| pm_new := fun _ => let* r := add_new in ret (r, (fa_entry c, true));
     pm_fwd := fun a _ ks => one_in a ks (fun x =>
       let* p := add_fwd c btype stype (fst a) (snd a) x in ret ((fst a, fst p), [snd p])) |}.
(** The metrics: true is Monitor, false is forward. *)
Definition corr_py : pymod bool :=
  {| pm_new := fun _ => corr_new;
     pm_fwd := fun r (monitor : bool) (ks : list nat) =>
       if monitor then match ks with
         | [x] => run* corr_mon r x None ;; ret (r, [])
         | [x; y] => run* corr_mon r x (Some y) ;; ret (r, [])
         | _ => ret (r, []) end
       else match ks with [] => keep r (corr_fwd r) | _ => ret (r, []) end |}.
Definition progerr_py (m : mode) (scale : Q) : pymod bool :=
  {| pm_new := fun ks : list nat => match ks with [s] => let* r := progerr_new scale s in ret (Some r) | _ => ret None end;
     pm_fwd := fun a (monitor : bool) (ks : list nat) =>
       match a with
       | None => ret (a, [])
       | Some r =>
           if monitor then one_in a ks (fun x => run* progerr_mon r x ;; ret (a, []))
           else match ks with [] => keep2 a (progerr_fwd m r) | _ => ret (a, []) end
       end |}.
(** The layers: true is forward, false a call of the clipper on the layer. *)
Definition layer_py (new : nat -> M nat) (f : data -> data -> data) (cm : mode) (meth : clip_method) (bitwidth : nat) : pymod bool :=
  {| pm_new := fun ks : list nat => match ks with [w] => let* r := new w in ret (Some r) | _ => ret None end;
     pm_fwd := fun a (forward : bool) (ks : list nat) =>
       match a with
       | None => ret (a, [])
       | Some w => if forward then one_in a ks (fun x => keep a (layer_fwd f w x))
                   else run* clip_weight cm meth bitwidth w ;; ret (a, [])
       end |}.
