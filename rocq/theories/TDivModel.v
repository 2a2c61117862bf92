(** ShiftReg, CORDIV_kernel, FSUDiv and FSUSqrt on tensors with shapes and broadcasting (/repo/kernel/{shiftreg,div,sqrt}.py), statement by
    statement. Shapes and indices list the LAST dimension first (TensorModel.v), so the first dimension is the last element of the list. *)
Require Export Verif.TensorModel Verif.DivModel.
Open Scope Z_scope.

(** Number of elements; position of an index in row-major order and back. *)
Fixpoint numel (s : shape) : nat := match s with [] => 1%nat | d :: r => (d * numel r)%nat end.
Fixpoint ravel (s : shape) (i : index) : nat := match s, i with d :: s', j :: i' => (j + d * ravel s' i')%nat | _, _ => 0%nat end.
Fixpoint unravel (s : shape) (n : nat) : index := match s with [] => [] | d :: s' => (n mod d)%nat :: unravel s' (n / d) end.
(** torch.Tensor.view(size): RuntimeError unless the number of elements is the same. *)
Definition tview {A} (s : shape) (t : tensor A) : result (tensor A) :=
  if (numel (shp t) =? numel s)%nat then Ok (mkT s (fun i => elt t (unravel (shp t) (ravel s i)))) else Err RuntimeError.
(** t[k] of the first dimension, k >= 0; torch.roll(t, -1, 0). *)
Definition dim0 {A} (t : tensor A) : nat := last (shp t) 0%nat.
Definition tslice {A} (k : nat) (t : tensor A) : result (tensor A) :=
  if (k <? dim0 t)%nat then Ok (mkT (removelast (shp t)) (fun i => elt t (i ++ [k]))) else Err IndexError.
Definition troll {A} (t : tensor A) : tensor A :=
  mkT (shp t) (fun i => elt t (removelast i ++ [(last i 0 + 1) mod dim0 t]%nat)).
(** t[k] = v: leading dimensions of size 1 of v are dropped, then v is expanded to the slice's shape or RuntimeError is raised. *)
Fixpoint strip1 (s : shape) : shape :=
  match s with
  | [] => []
  | d :: r => match strip1 r with [] => if (d =? 1)%nat then [] else [d] | q => d :: q end
  end.
Definition tset {A} (k : nat) (v : tensor A) (t : tensor A) : result (tensor A) :=
  if (k <? dim0 t)%nat then
    let sv := strip1 (shp v) in
    let slice := removelast (shp t) in
    match bshape sv slice with
    | Some s =>
        if shape_eqb s slice then
          Ok (mkT (shp t) (fun i => if (last i 0 =? k)%nat
                                    then elt v (bidx sv (removelast i) ++ repeat 0%nat (length (shp v) - length sv))
                                    else elt t i))
        else Err RuntimeError
    | None => Err RuntimeError
    end
  else Err IndexError.

(** ShiftReg: self.first, self.sr. shiftreg.py:24-25: before the first call the register has shape [entry]. *)
Record streg : Type := { sr_first : bool; sr_reg : tensor Z }.
Definition streg_init (entry : nat) : streg := {| sr_first := true; sr_reg := mkT [entry] (fun i => Z.of_nat (last i 0%nat) mod 2) |}.
(** shiftreg.py:27-54. [index] >= 0. *)
Definition streg_t (entry : nat) (st : streg) (input : tensor Z) (mask : option (tensor Z)) (index : nat) : result (streg * (tensor Z * tensor Z)) :=
  let sr := if sr_first st then mkT (shp input ++ [entry]) (fun i => Z.of_nat (last i 0%nat) mod 2) else sr_reg st in
  do out <- tslice index sr;
  let cnt := tsum (length (shp sr) - 1) sr in
  match mask with
  | None =>
      do sr' <- tset (entry - 1) input (troll sr);
      Ok ({| sr_first := false; sr_reg := sr' |}, (out, cnt))
  | Some m =>
      if shape_eqb (shp m) (shp input) then
        do sr_shift <- tset (entry - 1) input (troll sr);
        do a <- tmap2 Z.mul m sr_shift;
        do b <- tmap2 Z.mul (tmap (fun x => 1 - x) m) sr;
        do sr' <- tmap2 Z.add a b;
        Ok ({| sr_first := false; sr_reg := sr' |}, (out, cnt))
      else Err AssertionError
  end.

(** CORDIV_kernel: the register and idx (shape [1]). div.py:47-59. Indexing the register with a tensor of shape [1] (line 51) keeps the
    first dimension with size 1. *)
Record cordiv_t_st : Type := { ct_sr : streg; ct_idx : Z }.
Definition cordiv_t_init (entry : nat) : cordiv_t_st := {| ct_sr := streg_init entry; ct_idx := 0 |}.
Definition cordiv_t (entry : nat) (rng : list Z) (st : cordiv_t_st) (inp : tensor Z * tensor Z) : result (cordiv_t_st * tensor Z) :=
  let '(dividend, divisor) := inp in
  let divisor_eq_1 := tmap (fun x => b2z (x =? 1)) divisor in
  let sr := sr_reg (ct_sr st) in
  let k := ct_idx st mod Z.of_nat entry in
  if (k <? zlen rng)%Z then
    let pos := nthZ rng k in
    if (0 <=? pos) && (pos <? Z.of_nat (dim0 sr)) then
      let historic_q := mkT (removelast (shp sr) ++ [1%nat]) (fun i => elt sr (removelast i ++ [Z.to_nat pos])) in
      do a <- tmap2 Z.mul divisor_eq_1 dividend;
      do b <- tmap2 Z.mul (tmap (fun x => 1 - x) divisor_eq_1) historic_q;
      do ab <- tmap2 Z.add a b;
      do quotient <- tview (shp dividend) ab;
      do r <- streg_t entry (ct_sr st) quotient (Some divisor_eq_1) 0;
      Ok ({| ct_sr := fst r; ct_idx := ct_idx st + 1 |}, quotient)
    else Err IndexError
  else Err IndexError.

(** FSUDiv, div.py:96-131 and 133-153. *)
Record fsudiv_t_st : Type := {
  dt_sa1 : tensor Z; dt_sa2 : tensor Z; dt_b2u1 : tensor Z; dt_b2u2 : tensor Z; dt_u2b : tensor Z; dt_ss : tensor Z; dt_kn : cordiv_t_st }.
Definition fsudiv_t_init (c : fsudiv_cfg) : fsudiv_t_st :=
  {| dt_sa1 := fsusignabs_t_init (fd_depth_sa c); dt_sa2 := fsusignabs_t_init (fd_depth_sa c);
     dt_b2u1 := bi2uni_t_init; dt_b2u2 := bi2uni_t_init; dt_u2b := uni2bi_t_init;
     dt_ss := skewedsync_t_init; dt_kn := cordiv_t_init (fd_entry c) |}.
Definition fsudiv_unipolar_t (c : fsudiv_cfg) (ss : tensor Z) (kn : cordiv_t_st) (dividend divisor : tensor Z)
  : result (tensor Z * cordiv_t_st * tensor Z) :=
  do s <- skewedsync_t (fd_depth_ss c) ss (dividend, divisor);
  do q <- cordiv_t (fd_entry c) (fd_rng c) kn (snd s);
  Ok (fst s, fst q, snd q).
Definition fsudiv_t (c : fsudiv_cfg) (st : fsudiv_t_st) (inp : tensor Z * tensor Z) : result (fsudiv_t_st * tensor Z) :=
  let '(dividend, divisor) := inp in
  match fd_mode c with
  | Unipolar =>
      do r <- fsudiv_unipolar_t c (dt_ss st) (dt_kn st) dividend divisor;
      let '(ss', kn', q) := r in
      Ok ({| dt_sa1 := dt_sa1 st; dt_sa2 := dt_sa2 st; dt_b2u1 := dt_b2u1 st; dt_b2u2 := dt_b2u2 st;
             dt_u2b := dt_u2b st; dt_ss := ss'; dt_kn := kn' |}, q)
  | Bipolar =>
      do s1 <- fsusignabs_t (fd_depth_sa c) (dt_sa1 st) dividend;
      let '(sa1', (sign_dividend, abs_dividend)) := s1 in
      do s2 <- fsusignabs_t (fd_depth_sa c) (dt_sa2 st) divisor;
      let '(sa2', (sign_divisor, abs_divisor)) := s2 in
      do u1 <- bi2uni_t 1 (dt_b2u1 st) abs_dividend;
      do u2 <- bi2uni_t 1 (dt_b2u2 st) abs_divisor;
      do r <- fsudiv_unipolar_t c (dt_ss st) (dt_kn st) (snd u1) (snd u2);
      let '(ss', kn', q) := r in
      do b <- uni2bi_t 2 (dt_u2b st) q;
      do x1 <- tmap2 Z.lxor sign_dividend sign_divisor;
      do x2 <- tmap2 Z.lxor x1 (snd b);
      Ok ({| dt_sa1 := sa1'; dt_sa2 := sa2'; dt_b2u1 := fst u1; dt_b2u2 := fst u2;
             dt_u2b := fst b; dt_ss := ss'; dt_kn := kn' |}, x2)
  end.

(** FSUSqrt with emit=True: sqrt.py:59-100, 153-166, 168-176. self.idx stays 0. *)
Record sqrt_emit_t_st : Type := { et_emit : tensor Z; et_add : fsuadd_t_st; et_sr : streg; et_b2u : tensor Z }.
Definition sqrt_emit_t_init (entry_sr : nat) : sqrt_emit_t_st :=
  {| et_emit := tone 0; et_add := fsuadd_t_init sqrt_add_cfg; et_sr := streg_init entry_sr; et_b2u := bi2uni_t_init |}.
Definition sqrt_emit_t (m : mode) (entry_sr : nat) (st : sqrt_emit_t_st) (input : tensor Z) : result (sqrt_emit_t_st * tensor Z) :=
  let emit_out := if shape_eqb (shp (et_emit st)) (shp input) then et_emit st else tlike 0 input in
  do in_stack <- tstack2 input emit_out;
  do o <- fsuadd_t sqrt_add_cfg 0 (et_add st) in_stack;
  let '(add', output) := o in
  do s <- streg_t entry_sr (et_sr st) (tmap (fun x => 1 - x) output) None 0;
  let '(sr', (scrambled, _)) := s in
  match m with
  | Unipolar =>
      do e <- tmap2 Z.land scrambled output;
      Ok ({| et_emit := e; et_add := add'; et_sr := sr'; et_b2u := et_b2u st |}, output)
  | Bipolar =>
      do u <- bi2uni_t 1 (et_b2u st) output;
      do e <- tmap2 Z.land scrambled (snd u);
      Ok ({| et_emit := e; et_add := add'; et_sr := sr'; et_b2u := fst u |}, output)
  end.

(** FSUSqrt with emit=False: sqrt.py:101-127, 129-151, 177-184. *)
Record sqrt_trace_t_st : Type := { tt_trace : tensor Z; tt_b2u : tensor Z; tt_jk : tensor Z; tt_kn : cordiv_t_st; tt_dff : tensor Z }.
Definition sqrt_trace_t_init : sqrt_trace_t_st :=
  {| tt_trace := tone 0; tt_b2u := bi2uni_t_init; tt_jk := jkff_t_init; tt_kn := cordiv_t_init 4; tt_dff := tone 0 |}.
Definition sqrt_unipolar_trace_t (jk_trace : bool) (rng : list Z) (st : sqrt_trace_t_st) (output : tensor Z) : result sqrt_trace_t_st :=
  if jk_trace then
    do j <- jkff_t (tt_jk st) (output, tlike 1 output);
    Ok {| tt_trace := snd j; tt_b2u := tt_b2u st; tt_jk := fst j; tt_kn := tt_kn st; tt_dff := tt_dff st |}
  else
    do dividend <- tmap2 Z.land (tmap (fun x => 1 - x) (tt_dff st)) output;
    do divisor <- tmap2 Z.add (tt_dff st) dividend;
    do k <- cordiv_t 4 rng (tt_kn st) (dividend, divisor);
    Ok {| tt_trace := snd k; tt_b2u := tt_b2u st; tt_jk := tt_jk st; tt_kn := fst k; tt_dff := tmap (fun x => 1 - x) (tt_dff st) |}.
Definition sqrt_trace_t (m : mode) (jk_trace : bool) (rng : list Z) (st : sqrt_trace_t_st) (input : tensor Z) : result (sqrt_trace_t_st * tensor Z) :=
  do a <- tmap2 Z.land (tmap (fun x => 1 - x) (tt_trace st)) input;
  do output <- tmap2 Z.add a (tt_trace st);
  match m with
  | Unipolar => do st' <- sqrt_unipolar_trace_t jk_trace rng st output; Ok (st', output)
  | Bipolar =>
      do u <- bi2uni_t 1 (tt_b2u st) output;
      do st' <- sqrt_unipolar_trace_t jk_trace rng
        {| tt_trace := tt_trace st; tt_b2u := fst u; tt_jk := tt_jk st; tt_kn := tt_kn st; tt_dff := tt_dff st |} (snd u);
      Ok (st', output)
  end.
