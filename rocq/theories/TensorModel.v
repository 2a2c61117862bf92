(** Tensors with shapes and torch's broadcasting, and the streaming kernels written with them, statement by statement. The one-lane
    models of ShuffleModel, KernelModel and AddModel are compared with these in TensorProof.v.
    A shape lists the sizes from the LAST dimension to the first, an index likewise, so that broadcasting aligns heads. *)
Require Export Verif.Base Verif.ShuffleModel Verif.AddModel Verif.GenModel Verif.KernelModel.
Open Scope Z_scope.

Notation shape := (list nat) (only parsing).
Notation index := (list nat) (only parsing).

(** A tensor: its shape and its elements; [elt] is only read at valid indices. *)
Record tensor (A : Type) : Type := mkT { shp : shape; elt : index -> A }.
Arguments mkT {A} shp elt.
Arguments shp {A} t.
Arguments elt {A} t i.

(** An index is valid for a shape. *)
Fixpoint valid (s : shape) (i : index) : Prop :=
  match s, i with
  | [], [] => True
  | d :: s', j :: i' => (j < d)%nat /\ valid s' i'
  | _, _ => False
  end.

(** torch broadcasting (torch documentation, "Broadcasting semantics"): sizes are equal, or one of them is 1, or one is missing. *)
Definition bdim (a b : nat) : option nat :=
  if (a =? b)%nat then Some a else if (a =? 1)%nat then Some b else if (b =? 1)%nat then Some a else None.
Fixpoint bshape (s t : shape) : option shape :=
  match s, t with
  | [], _ => Some t
  | _, [] => Some s
  | a :: s', b :: t' =>
      match bdim a b, bshape s' t' with Some d, Some r => Some (d :: r) | _, _ => None end
  end.
(** The element of a tensor of shape [s] read at index [i] of the broadcast shape. *)
Fixpoint bidx (s : shape) (i : index) : index :=
  match s, i with
  | d :: s', j :: i' => (if (d =? 1)%nat then 0%nat else j) :: bidx s' i'
  | _, _ => []
  end.

(** An elementwise operation of one tensor; of two tensors (RuntimeError when the shapes do not match); in place. *)
Definition tmap {A B} (f : A -> B) (a : tensor A) : tensor B := mkT (shp a) (fun i => f (elt a i)).
Definition tmap2 {A B C} (f : A -> B -> C) (a : tensor A) (b : tensor B) : result (tensor C) :=
  match bshape (shp a) (shp b) with
  | Some s => Ok (mkT s (fun i => f (elt a (bidx (shp a) i)) (elt b (bidx (shp b) i))))
  | None => Err RuntimeError
  end.
Fixpoint shape_eqb (s t : shape) : bool :=
  match s, t with
  | [], [] => true
  | a :: s', b :: t' => (a =? b)%nat && shape_eqb s' t'
  | _, _ => false
  end.
Definition tmap2_ {A B C} (f : A -> B -> C) (a : tensor A) (b : tensor B) : result (tensor C) :=
  bind (tmap2 f a b) (fun r => if shape_eqb (shp r) (shp a) then Ok r else Err RuntimeError).
(** torch.zeros(1).fill_(v): shape [1]; torch.zeros_like, torch.ones_like. *)
Definition tone {A} (v : A) : tensor A := mkT [1%nat] (fun _ => v).
Definition tlike {A B} (v : B) (a : tensor A) : tensor B := mkT (shp a) (fun _ => v).
(** torch.stack([a, b], dim=0) of equal shapes; torch.sum(x, k), [k] counted from the last dimension. *)
Definition tstack2 {A} (a b : tensor A) : result (tensor A) :=
  if shape_eqb (shp a) (shp b) then
    Ok (mkT (shp a ++ [2%nat])
            (fun i => if (last i 0 =? 0)%nat then elt a (removelast i) else elt b (removelast i)))
  else Err RuntimeError.
Definition remove_at (k : nat) (s : list nat) : list nat := firstn k s ++ skipn (S k) s.
Definition insert_at (k j : nat) (i : list nat) : list nat := firstn k i ++ j :: skipn k i.
Definition tsum (k : nat) (x : tensor Z) : tensor Z :=
  mkT (remove_at k (shp x)) (fun i => zsum (map (fun j => elt x (insert_at k j i)) (seq 0 (nth k (shp x) 0%nat)))).

Notation "'do' x <- e ; k" := (bind e (fun x => k)) (at level 200, x name, e at level 100, k at level 200).

(** relu.py:33-40; depth = S d. *)
Definition fsurelu_t_init (d : nat) : tensor Z := tone (p2 d).
Definition fsurelu_t (d : nat) (acc : tensor Z) (input : tensor Z) : result (tensor Z * tensor Z) :=
  let half_prob_flag := tmap (fun a => b2z (a >=? p2 d)) acc in
  do output <- tmap2 Z.lor input (tmap (fun h => 1 - h) half_prob_flag);
  do acc1 <- tmap2 Z.add acc (tmap (fun o => o * 2 - 1) output);
  Ok (tmap (zclamp 0 (p2 (S d) - 1)) acc1, output).

(** signabs.py:33-39; depth = S d. *)
Definition fsusignabs_t_init (d : nat) : tensor Z := tone (p2 d).
Definition fsusignabs_t (d : nat) (acc : tensor Z) (input : tensor Z) : result (tensor Z * (tensor Z * tensor Z)) :=
  do acc1 <- tmap2 Z.add acc (tmap (fun x => x * 2 - 1) input);
  let acc' := tmap (zclamp 0 (p2 (S d) - 1)) acc1 in
  do sign <- tmap2 (fun a h => b2z (a <? h)) acc' (tone (p2 d));
  do output <- tmap2 Z.lxor sign input;
  Ok (acc', (sign, output)).

(** jkff.py:19-32. *)
Definition jkff_t_init : tensor Z := tone 0.
Definition jkff_t (jkff : tensor Z) (inp : tensor Z * tensor Z) : result (tensor Z * tensor Z) :=
  let '(J, K) := inp in
  let j0 := tmap (fun x => b2z (x =? 0)) J in
  let j1 := tmap (fun x => 1 - x) j0 in
  let k0 := tmap (fun x => b2z (x =? 0)) K in
  let k1 := tmap (fun x => 1 - x) k0 in
  do j0k0 <- tmap2 Z.land j0 k0;
  do j1k0 <- tmap2 Z.land j1 k0;
  do j0k1 <- tmap2 Z.land j0 k1;
  do j1k1 <- tmap2 Z.land j1 k1;
  do a <- tmap2 Z.mul j0k0 jkff;
  do b <- tmap2 Z.mul j1k0 (tlike 1 J);
  do c <- tmap2 Z.mul j0k1 (tlike 0 J);
  do d <- tmap2 Z.mul j1k1 (tmap (fun q => 1 - q) jkff);
  do ab <- tmap2 Z.add a b;
  do abc <- tmap2 Z.add ab c;
  do jkff' <- tmap2 Z.add abc d;
  Ok (jkff', jkff').

(** shuffle.py:76-82; d2 = depth - 2. *)
Definition bi2uni_t_init : tensor Z := tone 0.
Definition bi2uni_t (d2 : nat) (acc : tensor Z) (input : tensor Z) : result (tensor Z * tensor Z) :=
  do acc0 <- tmap2 Z.add acc (tmap (fun x => x * 2 - 1) input);
  let acc1 := tmap (zclamp (- p2 d2) (p2 d2)) acc0 in
  let output := tmap (fun a => b2z (a >=? 1)) acc1 in
  do acc2 <- tmap2_ Z.sub acc1 output;
  Ok (acc2, output).

(** shuffle.py:116-123; d2 = depth - 2. *)
Definition uni2bi_t_init : tensor Z := tone 0.
Definition uni2bi_t (d2 : nat) (acc : tensor Z) (input : tensor Z) : result (tensor Z * tensor Z) :=
  do input_stack <- tstack2 input (tlike 1 input);
  do acc0 <- tmap2 Z.add acc (tsum (length (shp input_stack) - 1) input_stack);
  let acc1 := tmap (zclamp (- p2 d2) (p2 d2)) acc0 in
  let output := tmap (fun a => b2z (a >=? 2)) acc1 in
  do acc2 <- tmap2_ Z.sub acc1 (tmap (fun o => o * 2) output);
  Ok (acc2, output).

(** shuffle.py:32-42. *)
Definition skewedsync_t_init : tensor Z := tone 0.
Definition skewedsync_t (depth : nat) (cnt : tensor Z) (inp : tensor Z * tensor Z)
  : result (tensor Z * (tensor Z * tensor Z)) :=
  let '(in_1, in_2) := inp in
  let upper := p2 depth - 1 in
  do sum_in <- tmap2 Z.add in_1 in_2;
  let cnt := if shape_eqb (shp cnt) (shp sum_in) then cnt else tlike 0 sum_in in
  let cnt_not_min := tmap (fun c => b2z (negb (c =? 0))) cnt in
  let cnt_not_max := tmap (fun c => b2z (negb (c =? upper))) cnt in
  do a <- tmap2 Z.mul cnt_not_min (tmap (fun x => 1 - x) in_1);
  do b <- tmap2 Z.mul (tmap (fun c => 0 - c) cnt_not_max) in_1;
  do ab <- tmap2 Z.add a b;
  do m <- tmap2_ Z.mul (tmap (fun s => b2z (s =? 1)) sum_in) ab;
  do out_1 <- tmap2 Z.add in_1 m;
  do delta <- tmap2_ Z.mul (tmap (fun s => b2z (s =? 1)) sum_in) (tmap (fun x => x * 2 - 1) in_1);
  do cnt1 <- tmap2_ Z.add cnt delta;
  Ok (tmap (zclamp 0 upper) cnt1, (out_1, in_2)).

(** add.py:61-99 without runtime arguments. [dima] counts from the first dimension; an axis that does not exist raises
    IndexError. scale_carry and offset have shape [1] (lines 54, 56); offset is replaced by a tensor of shape [1] (line 90). *)
Record fsuadd_t_st : Type := { ft_cfg : fsuadd_st; ft_acc : tensor Q }.
Definition fsuadd_t_init (c : fsuadd_cfg) : fsuadd_t_st := {| ft_cfg := fsuadd_init c; ft_acc := tone 0%Q |}.
Definition fsuadd_t (c : fsuadd_cfg) (dima : nat) (st : fsuadd_t_st) (input : tensor Z) : result (fsuadd_t_st * tensor Z) :=
  let ndim := length (shp input) in
  if (dima <? ndim)%nat then
    let k := (ndim - 1 - dima)%nat in
    let s1 := fsuadd_resolve c (ft_cfg st) (Z.of_nat (nth k (shp input) 0%nat)) None None in
    let lim := acc_lim (fa_depth c) in
    do acc_delta <- tmap2 (fun a b => (a - b)%Q) (tmap inject_Z (tsum k input)) (tone (fs_offset s1));
    do acc0 <- tmap2 Qplus (ft_acc st) acc_delta;
    let acc1 := tmap (qclamp (- lim) lim) acc0 in
    do output <- tmap2 (fun a s => b2z (qge a s)) acc1 (tone (fs_scale s1));
    do sub <- tmap2 (fun o s => (inject_Z o * s)%Q) output (tone (fs_scale s1));
    do acc2 <- tmap2_ (fun a b => (a - b)%Q) acc1 sub;
    Ok ({| ft_cfg := s1; ft_acc := tmap (qclamp (- lim) lim) acc2 |}, output)
  else Err IndexError.

(** mul.py:79-92 (static) with gen.py:174-175; [binary] = BinGen(in_1_prob). State: rng_idx, rng_idx_inv. *)
Definition bsgen_t (binary : tensor Z) (rng : list Z) (cycle : tensor Z) : result (tensor Z) :=
  tmap2 (fun b r => b2z (b >? r)) binary (tmap (fun c => nthZ rng (c mod zlen rng)) cycle).
Definition fsumul_static_t_init : tensor Z * tensor Z := (tone 0, tone 0).
Definition fsumul_static_t (m : mode) (binary : tensor Z) (rng : list Z) (st : tensor Z * tensor Z) (in_0 : tensor Z)
  : result ((tensor Z * tensor Z) * tensor Z) :=
  let '(rng_idx, rng_idx_inv) := st in
  do b <- bsgen_t binary rng rng_idx;
  do path <- tmap2 Z.land in_0 b;
  do rng_idx' <- tmap2 Z.add rng_idx in_0;
  match m with
  | Unipolar => Ok ((rng_idx', rng_idx_inv), path)
  | Bipolar =>
      do bi <- bsgen_t binary rng rng_idx_inv;
      do path_inv <- tmap2 Z.land (tmap (fun x => 1 - x) in_0) (tmap (fun x => 1 - x) bi);
      do rng_idx_inv' <- tmap2 Z.add rng_idx_inv (tmap (fun x => 1 - x) in_0);
      do out <- tmap2 Z.lor path path_inv;
      Ok ((rng_idx', rng_idx_inv'), out)
  end.

(** shiftreg.py:26-53 without mask, index 0: a register of shape [entry] + s is the list of its [entry] slices of shape s; before the
    first call (None) it is replaced by slices filled with i%2 in the shape of the input (lines 30-36). Line 46 writes the input into
    the last slice, which expands it to the slice's shape or raises. *)
Record sreg : Type := { sg_shp : shape; sg_rows : list (index -> Z) }.
Definition sreg_first (entry : nat) (st : option sreg) (input : tensor Z) : sreg :=
  match st with
  | Some r => r
  | None => {| sg_shp := shp input; sg_rows := map (fun i => fun _ => Z.of_nat i mod 2) (seq 0 entry) |}
  end.
Definition shiftreg_t (entry : nat) (st : option sreg) (input : tensor Z) : result (option sreg * (tensor Z * tensor Z)) :=
  let sr := sreg_first entry st input in
  let out := mkT (sg_shp sr) (hd (fun _ => 0) (sg_rows sr)) in
  let cnt := mkT (sg_shp sr) (fun i => zsum (map (fun r => r i) (sg_rows sr))) in
  do last <- tmap2_ (fun (_ : Z) x => x) (mkT (sg_shp sr) (fun _ => 0)) input;
  Ok (Some {| sg_shp := sg_shp sr; sg_rows := tl (sg_rows sr) ++ [elt last] |}, (out, cnt)).

(** mul.py:94-105 (in-stream). *)
Record fsumul_is_t_st : Type := { mt_sr : option sreg; mt_idx : tensor Z; mt_idx_inv : tensor Z }.
Definition fsumul_is_t_init : fsumul_is_t_st := {| mt_sr := None; mt_idx := tone 0; mt_idx_inv := tone 0 |}.
Definition fsumul_is_t (m : mode) (width : nat) (rng : list Z) (st : fsumul_is_t_st) (inp : tensor Z * tensor Z)
  : result (fsumul_is_t_st * tensor Z) :=
  let '(in_0, in_1) := inp in
  do r <- shiftreg_t (2 ^ width) (mt_sr st) in_1;
  let '(sr', (_, source)) := r in
  do g <- tmap2 (fun s r => b2z (s >? r)) source (tmap (nthZ rng) (mt_idx st));
  do path <- tmap2 Z.land in_0 g;
  do s0 <- tmap2 Z.add (mt_idx st) in_0;
  let idx' := tmap (fun x => x mod p2 width) s0 in
  match m with
  | Unipolar => Ok ({| mt_sr := sr'; mt_idx := idx'; mt_idx_inv := mt_idx_inv st |}, path)
  | Bipolar =>
      do gi <- tmap2 (fun s r => b2z (s >? r)) source (tmap (nthZ rng) (mt_idx_inv st));
      do path_inv <- tmap2 Z.land (tmap (fun x => 1 - x) in_0) (tmap (fun x => 1 - x) gi);
      do s1 <- tmap2 Z.add (mt_idx_inv st) (tmap (fun x => 1 - x) in_0);
      do out <- tmap2 Z.lor path path_inv;
      Ok ({| mt_sr := sr'; mt_idx := idx'; mt_idx_inv := tmap (fun x => x mod p2 width) s1 |}, out)
  end.
