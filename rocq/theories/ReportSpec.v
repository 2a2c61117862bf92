(** Vocabulary for the reports. *)
Require Export Verif.Spec Verif.MetricModel Verif.ReportModel.
Open Scope Z_scope.

(** [m] is the arithmetic mean, [v] the unbiased variance of the numbers. *)
Definition is_mean (l : list Q) (m : Q) : Prop := (inject_Z (zlen l) * m == qsum l)%Q.
Definition is_variance (l : list Q) (m v : Q) : Prop := (inject_Z (zlen l - 1) * v == qsum (map (fun x => (x - m) ^ 2) l))%Q.
(** [lo] and [hi] occur among the numbers and bound them. *)
Definition range_of (l : list Q) (lo hi : Q) : Prop :=
  (exists x, In x l /\ x == lo)%Q /\ (exists x, In x l /\ x == hi)%Q /\ Forall (fun x => lo <= x <= hi)%Q l.
(** The object after monitoring a stream for every element of the source. *)
Definition monitored (m : mode) (scale : Q) (h : list (Q * list Z)) : pe_obj :=
  {| po_mode := m; po_scale := scale; po_lanes := map (fun p => (fst p, pe_monitors pe_init (snd p))) h |}.
(** The error of one element: the value of its stream minus the scaled and clamped source; the relative error divides by the value. *)
Definition error_of (m : mode) (scale : Q) (p : Q * list Z) : Q := (value m (snd p) - qclamp (-1) 1 (fst p / scale))%Q.
Definition relative_of (m : mode) (scale : Q) (p : Q * list Z) : Q :=
  if Qeq_dec (value m (snd p)) 0 then 0%Q else (error_of m scale p / value m (snd p))%Q.
(** An element whose stream is 0 although its source is not. *)
Definition divides_by_zero (m : mode) (scale : Q) (p : Q * list Z) : Prop := (value m (snd p) == 0 /\ ~ error_of m scale p == 0)%Q.
(** The numbers of a line about the numbers [l]: extremes, standard deviation, mean and root mean square. *)
Definition describes (l : list Q) (s : list shown) : Prop :=
  exists lo hi sd mean r, s = [Num lo; Num hi; sd; Num mean; Root r] /\ range_of l lo hi /\ is_mean l mean /\
    is_mean (map (fun x => x ^ 2) l)%Q r /\
    ((length l = 1%nat /\ sd = Nan) \/ (1 < length l)%nat /\ exists v, sd = Root v /\ is_variance l mean v).
(** Every element was monitored on a non-empty stream of bits; none for more than 2^60 cycles. *)
Definition streams_ok (h : list (Q * list Z)) : Prop := Forall (fun p => bits (snd p) /\ snd p <> []) h.
Definition streams_short (h : list (Q * list Z)) : Prop := Forall (fun p => zlen (snd p) <= 1152921504606846976) h.
(** The largest finite float32. *)
Definition float_max : Q := inject_Z 340282346638528859811704183484516925440.
