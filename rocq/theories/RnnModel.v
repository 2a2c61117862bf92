(** Model of the binary-interfaced minimal gated units of /repo/kernel/rnn.py: HardMGUCell and HardMGUCellFXP.
    Exact rational arithmetic in place of float32; tensors are lists of rows (batch first), of the right sizes: the shape
    errors of torch.cat, F.linear and of the broadcasting operators are not modelled. reset_parameters (rnn.py:266-269,
    328-331) is [truncated_normal] of UtilsModel; the weights here are arbitrary. *)
Require Export Verif.Base Verif.UtilsModel Verif.HubModel Verif.AddModel.
Open Scope Z_scope.

(** Elementwise operators on batches; torch.cat((a, b), 1); F.linear(x, w, b). *)
Definition bmap (f : Q -> Q) (a : list (list Q)) : list (list Q) := map (map f) a.
Definition bmap2 (f : Q -> Q -> Q) (a b : list (list Q)) : list (list Q) := map2 (map2 f) a b.
Definition cat1 (a b : list (list Q)) : list (list Q) := map2 (fun x y => x ++ y) a b.
Definition f_linear (x w : list (list Q)) (b : option (list Q)) : list (list Q) := add_bias b (qmatmul_t x w).

(** rnn.py:255-263, 317-325: the parameters. *)
Record mgu_par : Type := { mg_wf : list (list Q); mg_bf : option (list Q); mg_wn : list (list Q); mg_bn : option (list Q) }.
(** The attributes assigned by forward, and its result. *)
Record mgu_vals : Type := {
  mv_fg_in : list (list Q); mv_fg : list (list Q); mv_fg_hx : list (list Q); mv_ng : list (list Q);
  mv_fg_ng : list (list Q); mv_fg_ng_inv : list (list Q); mv_hy : list (list Q) }.

(** rnn.py:272-273, 334-335. *)
Definition mgu_hx (hidden : nat) (input : list (list Q)) (hx : option (list (list Q))) : list (list Q) :=
  match hx with Some h => h | None => repeat (repeat 0%Q hidden) (length input) end.

(** rnn.py:248-253: the gates are HUBHardsigmoid (scale 3) and HUBHardtanh when hard, otherwise nn.Sigmoid and nn.Tanh;
    they are parameters [sg], [th] here. rnn.py:271-290: HardMGUCell.forward. *)
Definition mgu_forward (sg th : Q -> Q) (hidden : nat) (p : mgu_par) (input : list (list Q)) (hx0 : option (list (list Q))) : mgu_vals :=
  let hx := mgu_hx hidden input hx0 in
  let fg_in := bmap hubhardtanh (f_linear (cat1 hx input) (mg_wf p) (mg_bf p)) in
  let fg := bmap sg fg_in in
  let fg_hx := bmap2 Qmult fg hx in
  let ng := bmap th (f_linear (cat1 fg_hx input) (mg_wn p) (mg_bn p)) in
  let fg_ng := bmap2 Qmult fg ng in
  let fg_ng_inv := bmap (fun v => 0 - v)%Q fg_ng in
  let hy := bmap hubhardtanh (bmap2 Qplus (bmap2 Qplus ng fg_ng_inv) fg_hx) in
  {| mv_fg_in := fg_in; mv_fg := fg; mv_fg_hx := fg_hx; mv_ng := ng; mv_fg_ng := fg_ng; mv_fg_ng_inv := fg_ng_inv; mv_hy := hy |}.
Definition hardmgu_forward : nat -> mgu_par -> list (list Q) -> option (list (list Q)) -> mgu_vals :=
  mgu_forward (hubhardsigmoid 3) hubhardtanh.

(** rnn.py:333-352: HardMGUCellFXP.forward; [trunc] is Round(intwidth, fracwidth), which passes None. *)
Definition mgufxp_forward (sg th : Q -> Q) (intwidth fracwidth : Z) (hidden : nat) (p : mgu_par)
    (input : list (list Q)) (hx0 : option (list (list Q))) : mgu_vals :=
  let hx := mgu_hx hidden input hx0 in
  let trunc := bmap (round_fxp intwidth fracwidth) in
  let fg_ug_in := cat1 (trunc hx) (trunc input) in
  let fg_in := bmap hubhardtanh (f_linear (trunc fg_ug_in) (trunc (mg_wf p)) (round_forward intwidth fracwidth (mg_bf p))) in
  let fg := bmap sg (trunc fg_in) in
  let fg_hx := bmap2 Qmult (trunc fg) (trunc hx) in
  let ng_ug_in := cat1 (trunc fg_hx) (trunc input) in
  let ng := bmap th (trunc (f_linear (trunc ng_ug_in) (trunc (mg_wn p)) (round_forward intwidth fracwidth (mg_bn p)))) in
  let fg_ng := bmap2 Qmult (trunc fg) (trunc ng) in
  let fg_ng_inv := bmap (fun v => 0 - v)%Q (trunc fg_ng) in
  let hy := bmap hubhardtanh (bmap2 Qplus (bmap2 Qplus (trunc ng) (trunc fg_ng_inv)) (trunc fg_hx)) in
  {| mv_fg_in := fg_in; mv_fg := fg; mv_fg_hx := fg_hx; mv_ng := ng; mv_fg_ng := fg_ng; mv_fg_ng_inv := fg_ng_inv; mv_hy := hy |}.
Definition hardmgufxp_forward : Z -> Z -> nat -> mgu_par -> list (list Q) -> option (list (list Q)) -> mgu_vals :=
  mgufxp_forward (hubhardsigmoid 3) hubhardtanh.

(** The use of a cell on a sequence: hx = cell(input, hx), starting from None or from a given state. *)
Definition cell_step (fwd : list (list Q) -> option (list (list Q)) -> mgu_vals) (hx : option (list (list Q))) (input : list (list Q)) :
    option (list (list Q)) * mgu_vals :=
  let v := fwd input hx in (Some (mv_hy v), v).
