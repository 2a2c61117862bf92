(** Models of /repo/kernel/div.py and /repo/kernel/sqrt.py, one lane. *)
Require Export Verif.Base Verif.GenModel Verif.ShuffleModel Verif.AddModel Verif.KernelModel.
Open Scope Z_scope.

(** ** CORDIV_kernel, div.py:32-45 *)
Record cordiv_st : Type := { cd_sr : list Z; cd_idx : Z }.
Definition cordiv_init (entry : nat) : cordiv_st := {| cd_sr := shiftreg_init entry; cd_idx := 0 |}.

(** div.py:35: the width of the kernel's RNG, int(math.log2(entry)). *)
Definition cordiv_width (entry : nat) : nat := Nat.log2 entry.

(** div.py:47-59. Indexing the sequence with idx % entry (line 51) raises when the sequence is shorter;
    indexing the register with a sequence entry raises when that is not a valid position. *)
Definition cordiv_step (entry : nat) (rng : list Z) (st : cordiv_st) (inp : Z * Z) : result (cordiv_st * Z) :=
  let '(dividend, divisor) := inp in
  let divisor_eq_1 := b2z (divisor =? 1) in
  let k := cd_idx st mod Z.of_nat entry in
  if (k <? zlen rng)%Z then
    let pos := nthZ rng k in
    if (0 <=? pos) && (pos <? Z.of_nat entry) then
      let historic_q := nthZ (cd_sr st) pos in
      let quotient := divisor_eq_1 * dividend + (1 - divisor_eq_1) * historic_q in
      let '(sr', _) := shiftreg_step (cd_sr st) (quotient, Some divisor_eq_1, 0) in
      Ok ({| cd_sr := sr'; cd_idx := cd_idx st + 1 |}, quotient)
    else Err IndexError
  else Err IndexError.

(** ** FSUDiv, div.py:96-131 *)
Record fsudiv_cfg : Type := {
  fd_mode : mode;
  fd_depth_sa : nat;      (* depth_sa - 1 *)
  fd_depth_ss : nat;
  fd_entry : nat;
  fd_rng : list Z          (* sequence of the kernel's RNG *)
}.
Record fsudiv_st : Type := {
  fd_sa1 : Z; fd_sa2 : Z; fd_b2u1 : Z; fd_b2u2 : Z; fd_u2b : Z; fd_ss : Z; fd_kn : cordiv_st
}.
Definition fsudiv_init (c : fsudiv_cfg) : fsudiv_st :=
  {| fd_sa1 := fsusignabs_init (fd_depth_sa c); fd_sa2 := fsusignabs_init (fd_depth_sa c);
     fd_b2u1 := bi2uni_init; fd_b2u2 := bi2uni_init; fd_u2b := uni2bi_init;
     fd_ss := skewedsync_init; fd_kn := cordiv_init (fd_entry c) |}.

(** div.py:143-146. *)
Definition fsudiv_unipolar (c : fsudiv_cfg) (ss : Z) (kn : cordiv_st) (dividend divisor : Z)
  : result (Z * cordiv_st * Z) :=
  let '(ss', (dividend_sync, divisor_sync)) := skewedsync_step (fd_depth_ss c) ss (dividend, divisor) in
  match cordiv_step (fd_entry c) (fd_rng c) kn (dividend_sync, divisor_sync) with
  | Err e => Err e
  | Ok (kn', quotient) => Ok (ss', kn', quotient)
  end.

(** div.py:133-141 and 148-153; Bi2Uni depth 3 (line 113), Uni2Bi depth 4 (line 118). *)
Definition fsudiv_step (c : fsudiv_cfg) (st : fsudiv_st) (inp : Z * Z) : result (fsudiv_st * Z) :=
  let '(dividend, divisor) := inp in
  match fd_mode c with
  | Unipolar =>
      match fsudiv_unipolar c (fd_ss st) (fd_kn st) dividend divisor with
      | Err e => Err e
      | Ok (ss', kn', q) =>
          Ok ({| fd_sa1 := fd_sa1 st; fd_sa2 := fd_sa2 st; fd_b2u1 := fd_b2u1 st; fd_b2u2 := fd_b2u2 st;
                 fd_u2b := fd_u2b st; fd_ss := ss'; fd_kn := kn' |}, q)
      end
  | Bipolar =>
      let '(sa1', (sign_dividend, abs_dividend)) := fsusignabs_step (fd_depth_sa c) (fd_sa1 st) dividend in
      let '(sa2', (sign_divisor, abs_divisor)) := fsusignabs_step (fd_depth_sa c) (fd_sa2 st) divisor in
      let '(b1', uni_abs_dividend) := bi2uni_step 1 (fd_b2u1 st) abs_dividend in
      let '(b2', uni_abs_divisor) := bi2uni_step 1 (fd_b2u2 st) abs_divisor in
      match fsudiv_unipolar c (fd_ss st) (fd_kn st) uni_abs_dividend uni_abs_divisor with
      | Err e => Err e
      | Ok (ss', kn', q) =>
          let '(u', bi_abs_quotient) := uni2bi_step 2 (fd_u2b st) q in
          Ok ({| fd_sa1 := sa1'; fd_sa2 := sa2'; fd_b2u1 := b1'; fd_b2u2 := b2';
                 fd_u2b := u'; fd_ss := ss'; fd_kn := kn' |},
              Z.lxor (Z.lxor sign_dividend sign_divisor) bi_abs_quotient)
      end
  end.

(** ** FSUSqrt, sqrt.py:45-127 *)

(** sqrt.py:62-68: adder of the emit mode. *)
Definition sqrt_add_cfg : fsuadd_cfg :=
  {| fa_mode := Unipolar; fa_scale := Some 1%Q; fa_depth := 10; fa_entry := None |}.

Record sqrt_emit_st : Type := {
  se_emit : Z; se_add : fsuadd_st; se_sr : list Z; se_idx : Z; se_b2u : Z
}.
Definition sqrt_emit_init (entry_sr : nat) : sqrt_emit_st :=
  {| se_emit := 0; se_add := fsuadd_init sqrt_add_cfg; se_sr := shiftreg_init entry_sr;
     se_idx := 0; se_b2u := bi2uni_init |}.

(** sqrt.py:155-166 (unipolar_emit, bipolar_emit) and 169-177 (forward with emit=True).
    self.idx is read but never written in /repo, so it is carried unchanged. *)
Definition sqrt_emit_step (m : mode) (entry_sr : nat) (st : sqrt_emit_st) (input : Z) : sqrt_emit_st * Z :=
  let '(add', output) := fsuadd_step sqrt_add_cfg (se_add st) [input; se_emit st] in
  let output_inv := 1 - output in
  let '(sr', (scrambled, _)) :=
    shiftreg_step (se_sr st) (output_inv, None, se_idx st mod Z.of_nat entry_sr) in
  match m with
  | Unipolar =>
      ({| se_emit := Z.land scrambled output; se_add := add'; se_sr := sr';
          se_idx := se_idx st; se_b2u := se_b2u st |}, output)
  | Bipolar =>
      let '(b', output_uni) := bi2uni_step 1 (se_b2u st) output in
      ({| se_emit := Z.land scrambled output_uni; se_add := add'; se_sr := sr';
          se_idx := se_idx st; se_b2u := b' |}, output)
  end.

(** sqrt.py:101-127: emit=False. *)
Record sqrt_trace_st : Type := { st_trace : Z; st_b2u : Z; st_jk : Z; st_kn : cordiv_st; st_dff : Z }.
Definition sqrt_trace_init : sqrt_trace_st :=
  {| st_trace := 0; st_b2u := bi2uni_init; st_jk := jkff_init; st_kn := cordiv_init 4; st_dff := 0 |}.

(** sqrt.py:135-153 (unipolar_trace): K is all ones; the CORDIV kernel has entry 4 (line 119). *)
Definition sqrt_unipolar_trace (jk_trace : bool) (rng : list Z) (st : sqrt_trace_st) (output : Z)
  : result (sqrt_trace_st) :=
  if jk_trace then
    let '(jk', trace) := jkff_step (st_jk st) (output, 1) in
    Ok {| st_trace := trace; st_b2u := st_b2u st; st_jk := jk'; st_kn := st_kn st; st_dff := st_dff st |}
  else
    let dividend := Z.land (1 - st_dff st) output in
    let divisor := st_dff st + dividend in
    match cordiv_step 4 rng (st_kn st) (dividend, divisor) with
    | Err e => Err e
    | Ok (kn', trace) =>
        Ok {| st_trace := trace; st_b2u := st_b2u st; st_jk := st_jk st; st_kn := kn'; st_dff := 1 - st_dff st |}
    end.

(** sqrt.py:129-133 (bipolar_trace), 178-184 (forward with emit=False). *)
Definition sqrt_trace_step (m : mode) (jk_trace : bool) (rng : list Z) (st : sqrt_trace_st) (input : Z)
  : result (sqrt_trace_st * Z) :=
  let output := Z.land (1 - st_trace st) input + st_trace st in
  let r := match m with
           | Unipolar => sqrt_unipolar_trace jk_trace rng st output
           | Bipolar =>
               let '(b', out) := bi2uni_step 1 (st_b2u st) output in
               sqrt_unipolar_trace jk_trace rng
                 {| st_trace := st_trace st; st_b2u := b'; st_jk := st_jk st; st_kn := st_kn st; st_dff := st_dff st |} out
           end in
  match r with
  | Err e => Err e
  | Ok st' => Ok (st', output)
  end.
