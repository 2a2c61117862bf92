(** C74: the report functions of kernel/utils.py. *)
From Coq Require Import String Lqa.
Require Import Verif.Base Verif.BaseLemmas Verif.Spec Verif.MetricModel Verif.ReportModel Verif.ReportSpec Verif.ReportProof.
Open Scope string_scope.
Open Scope list_scope.
Open Scope Z_scope.

(** Asking for the values raises, whatever was monitored, before anything is printed: the object has no attribute in_value. *)
Theorem C74_value_raises : forall o rel, progerror_report o true rel = ([], Some AttributeError).
Proof. exact report_value_raises. Qed.
Print Assumptions C74_value_raises.
Theorem C74_attributes : forall o name, (exists v, pe_attribute o name = Ok v) <-> In name ["source"; "cycle"; "one_cnt"; "pp"; "pe"].
Proof. exact report_attributes. Qed.
Print Assumptions C74_attributes.
(** Without it, one line describing the errors of all elements. *)
Theorem C74_absolute : forall m scale h, h <> [] -> streams_ok h ->
  exists s, progerror_report (monitored m scale h) false false = ([{| ln_label := "Absolute Error range"; ln_shown := s |}], None) /\
    describes (map (error_of m scale) h) s.
Proof. exact report_absolute. Qed.
Print Assumptions C74_absolute.
(** With relative errors, a second line describing error/value, where 0/0 counts as 0, if no stream is 0 beside a source that is not. *)
Theorem C74_relative : forall m scale h, h <> [] -> streams_ok h -> streams_short h -> Forall (fun p => ~ divides_by_zero m scale p) h ->
  exists s s', progerror_report (monitored m scale h) false true =
    ([{| ln_label := "Absolute Error range"; ln_shown := s |}; {| ln_label := "Relative Error range"; ln_shown := s' |}], None) /\
    describes (map (error_of m scale) h) s /\ describes (map (relative_of m scale) h) s'.
Proof. exact report_relative. Qed.
Print Assumptions C74_relative.
(** One such element, however many others, and the line shows the largest float and an infinite root mean square. *)
Theorem C74_relative_overflow : forall m scale h p, streams_ok h -> streams_short h -> In p h -> divides_by_zero m scale p ->
  exists s lo hi, progerror_report (monitored m scale h) false true =
    ([{| ln_label := "Absolute Error range"; ln_shown := s |};
      {| ln_label := "Relative Error range"; ln_shown := [Num lo; Num hi; Overflowed; Overflowed; Inf] |}], None) /\
    describes (map (error_of m scale) h) s /\
    (0 < error_of m scale p -> hi == float_max)%Q /\ (error_of m scale p < 0 -> lo == - float_max)%Q.
Proof. exact report_relative_overflow. Qed.
Print Assumptions C74_relative_overflow.
(** Before anything is monitored the absolute errors are nan, yet the relative errors are reported as exactly 0. *)
Theorem C74_unmonitored : forall m scale srcs, srcs <> [] ->
  let o := {| po_mode := m; po_scale := scale; po_lanes := map (fun s => (s, pe_init)) srcs |} in
  exists s, progerror_report o false true =
    ([{| ln_label := "Absolute Error range"; ln_shown := [Nan; Nan; Nan; Nan; Nan] |};
      {| ln_label := "Relative Error range"; ln_shown := s |}], None) /\
    describes (repeat 0%Q (length srcs)) s.
Proof. exact report_unmonitored. Qed.
Print Assumptions C74_unmonitored.
Theorem C74_empty : forall m scale rel,
  progerror_report {| po_mode := m; po_scale := scale; po_lanes := [] |} false rel = ([], Some RuntimeError).
Proof. exact report_empty. Qed.
Print Assumptions C74_empty.
(** How the numbers of a line hang together: the mean is between the extremes, the square of the root mean square splits into the square
    of the mean and the variance, and it is 0 only if every number is. *)
Theorem C74_line : forall l lo hi sd mean r, l <> [] -> describes l [Num lo; Num hi; sd; Num mean; Root r] ->
  (lo <= mean <= hi)%Q /\ (mean ^ 2 <= r)%Q /\ (r == 0 <-> Forall (fun x => x == 0)%Q l)%Q /\
  (forall v, sd = Root v -> 0 <= v /\ r == mean ^ 2 + v * (inject_Z (zlen l - 1) / inject_Z (zlen l)))%Q.
Proof. exact describes_facts. Qed.
Print Assumptions C74_line.
(** tensor_unary_outlier: the share of elements outside [-1,1] in percent. *)
Theorem C74_outlier : forall l, l <> [] ->
  let out (x : Q) := negb (Qle_bool (-(1)) x && Qle_bool x 1) in
  exists lo hi r, tensor_unary_outlier (map Some l) = Ok [Num lo; Num hi; Num r] /\ range_of l lo hi /\
    (inject_Z (zlen l) * r == 100 * inject_Z (countb out l))%Q /\ (0 <= r <= 100)%Q /\
    (r == 0 <-> Forall (fun x => -(1) <= x <= 1)%Q l)%Q /\ (r == 100 <-> Forall (fun x => x < -(1) \/ 1 < x)%Q l)%Q.
Proof. exact outlier_report. Qed.
Print Assumptions C74_outlier.

Definition lowest (s : shown) : shown := match s with Num q => Num (Qred q) | Root q => Root (Qred q) | _ => s end.
Definition numbers (r : list line * option pyerr) : list (list shown) := map (fun l => map lowest (ln_shown l)) (fst r).
(** Sources 1/2 and 1, streams of value 1/2 each: errors 0 and -1/2, relative errors 0 and -1. *)
Example C74_ex_lines : numbers (progerror_report (monitored Bipolar 1 [(1 # 2, [1; 1; 0; 1]); (1%Q, [1; 0; 1; 1])]) false true) =
  [[Num (-1 # 2); Num 0; Root (1 # 8); Num (-1 # 4); Root (1 # 8)]; [Num (-1 # 1); Num 0; Root (1 # 2); Num (-1 # 2); Root (1 # 2)]].
Proof. vm_compute. reflexivity. Qed.
Example C74_ex_overflow : numbers (progerror_report (monitored Unipolar 2 [(1 # 2, [0; 0; 0; 0]); (1%Q, [1; 0; 1; 1])]) false true) =
  [[Num (-1 # 4); Num (1 # 4); Root (1 # 8); Num 0; Root (1 # 16)]; [Num (- float_max); Num (1 # 3); Overflowed; Overflowed; Inf]].
Proof. vm_compute. reflexivity. Qed.
Example C74_ex_single : numbers (progerror_report (monitored Unipolar 1 [(1 # 4, [1; 0])]) false false) =
  [[Num (1 # 4); Num (1 # 4); Nan; Num (1 # 4); Root (1 # 16)]].
Proof. vm_compute. reflexivity. Qed.
Example C74_ex_value : progerror_report (monitored Unipolar 1 [(1 # 4, [1; 0])]) true true = ([], Some AttributeError) /\
  pe_attribute (monitored Unipolar 1 [(5 # 4, [1; 0])]) "source" = Ok [Some 1%Q].
Proof. split; vm_compute; reflexivity. Qed.
Example C74_ex_outlier : tensor_unary_outlier (map Some [1 # 2; 3; -(1); -(2); 1; 4 # 4; 9 # 8]%Q) = Ok [Num (-2 # 1); Num 3; Num (300 # 7)].
Proof. vm_compute. reflexivity. Qed.
