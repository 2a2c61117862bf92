(** Model of the report functions of /repo/kernel/utils.py:119-168. They print formatted numbers; a printed line is modelled by its label
    and the numbers it shows, before rounding to six decimals. Every function used reduces a whole tensor, so that a tensor is the list
    of its elements; nan is [None]. The source of the monitored object and its stream have the same shape. *)
From Coq Require Import String.
Require Import Verif.Base Verif.MetricModel Verif.UtilsModel.
Open Scope string_scope.
Open Scope list_scope.
Open Scope Z_scope.

(** A printed number: exact, the non-negative square root of a rational (torch.std, torch.sqrt), nan, inf, or a number on which float32
    overflow decides (only the standard deviation and mean of a line that contains the largest float). *)
Inductive shown : Type := Num (q : Q) | Root (q : Q) | Nan | Inf | Overflowed.
Record line : Type := { ln_label : string; ln_shown : list shown }.

(** The numbers of a tensor without nan. *)
Fixpoint all_num (l : list (option Q)) : option (list Q) :=
  match l with
  | [] => Some []
  | None :: _ => None
  | Some x :: r => option_map (cons x) (all_num r)
  end.
(** [torch.mean] and the sum of squared deviations over n - 1 ([torch.std_mean], unbiased: nan for a single element). *)
Definition mean_of (l : list Q) : Q := (qsum l / inject_Z (zlen l))%Q.
Definition var_of (l : list Q) : Q :=
  (qsum (map (fun x => (x - mean_of l) * (x - mean_of l)) l) / inject_Z (zlen l - 1))%Q.
Definition std_of (l : list Q) : shown := if zlen l =? 1 then Nan else Root (var_of l).
(** [torch.sqrt(torch.mean(torch.square(_)))]. *)
Definition rmse_of (l : list Q) : shown := Root (mean_of (map (fun x => x * x)%Q l)).
(** min, max, std, mean of a tensor: [min] of an empty tensor raises, any nan makes all of them nan. *)
Definition summary (l : list (option Q)) : result (list shown) :=
  match l with
  | [] => Err RuntimeError
  | _ => Ok (match all_num l with
             | None => [Nan; Nan; Nan; Nan]
             | Some v => [Num (qmin_list v); Num (qmax_list v); std_of v; Num (mean_of v)]
             end)
  end.
Definition rmse (l : list (option Q)) : shown := match all_num l with None => Nan | Some v => rmse_of v end.

(** utils.py:119-127 [tensor_unary_outlier]: min, max and the percentage of elements above 1 or below -1. nan compares false. *)
Definition tensor_unary_outlier (t : list (option Q)) : result (list shown) :=
  match t with
  | [] => Err RuntimeError
  | _ =>
      let count f := zsum (map (fun x => match x with Some v => b2z (f v) | None => 0 end) t) in
      let outlier := count (fun v => qgt v 1) + count (fun v => qgt (-(1)) v) in
      let ratio := (inject_Z outlier / inject_Z (zlen t) * 100)%Q in
      Ok (match all_num t with
          | None => [Nan; Nan; Num ratio]
          | Some v => [Num (qmin_list v); Num (qmax_list v); Num ratio]
          end)
  end.

(** A [ProgError] object (metric.py:56-97): for every element of its source (already scaled and clamped) the monitored counts.
    [pe_attribute]: reading a tensor attribute that [ProgError.__init__] assigns (metric.py:77-85; pp and pe are what the last forward
    left, here one that has just run); any other name is an AttributeError of [torch.nn.Module]. *)
Record pe_obj : Type := { po_mode : mode; po_scale : Q; po_lanes : list (Q * pe_st) }.
Definition pe_call (o : pe_obj) : list (option Q) * list (option Q) :=
  let out := map (fun p => pe_forward (po_mode o) (po_scale o) (fst p) (snd p)) (po_lanes o) in
  (map (option_map fst) out, map (option_map snd) out).
Definition pe_attribute (o : pe_obj) (name : string) : result (list (option Q)) :=
  if String.eqb name "source" then Ok (map (fun p => Some (pe_source (po_scale o) (fst p))) (po_lanes o))
  else if String.eqb name "cycle" then Ok (map (fun p => Some (inject_Z (pe_cycle (snd p)))) (po_lanes o))
  else if String.eqb name "one_cnt" then Ok (map (fun p => Some (inject_Z (pe_one (snd p)))) (po_lanes o))
  else if String.eqb name "pp" then Ok (fst (pe_call o))
  else if String.eqb name "pe" then Ok (snd (pe_call o))
  else Err AttributeError.

(** The largest finite float32, to which [torch.nan_to_num] maps inf. *)
Definition flt_max : Q := inject_Z ((p2 24 - 1) * p2 104).
(** One element of [torch.nan_to_num(pe/pp)], utils.py:158: nan (also 0/0) becomes 0, a quotient by 0 plus or minus the largest float.
    Finite quotients as exact rationals. *)
Definition relative (pp pe : option Q) : Q :=
  match pp, pe with
  | Some p, Some e =>
      if Qeq_bool p 0 then (if Qeq_bool e 0 then 0 else if qgt e 0 then flt_max else - flt_max)%Q else (e / p)%Q
  | _, _ => 0%Q
  end.
(** utils.py:159-168: the numbers of the last line; a square above the largest float is inf, and so is then the mean of squares. *)
Definition relative_shown (l : list Q) : list shown :=
  if existsb (fun x => qgt (x * x) flt_max) l
  then [Num (qmin_list l); Num (qmax_list l); Overflowed; Overflowed; Inf]
  else [Num (qmin_list l); Num (qmax_list l); std_of l; Num (mean_of l); rmse_of l].

(** utils.py:130-168 [progerror_report]: the lines printed and the exception raised, if any. *)
Definition progerror_report (o : pe_obj) (report_value report_relative : bool) : list line * option pyerr :=
  let pp := fst (pe_call o) in
  let pe := snd (pe_call o) in
  let rest (printed : list line) :=
    match summary pe with                                                     (* :147-155 *)
    | Err e => (printed, Some e)
    | Ok v =>
        let printed := printed ++ [{| ln_label := "Absolute Error range"; ln_shown := v ++ [rmse pe] |}] in
        if report_relative                                                    (* :157-168 *)
        then (printed ++ [{| ln_label := "Relative Error range"; ln_shown := relative_shown (map2 relative pp pe) |}], None)
        else (printed, None)
    end in
  if report_value then
    match pe_attribute o "in_value" with                                      (* :132-133 *)
    | Err e => ([], Some e)
    | Ok src =>
        match src with
        | [] => ([], Some RuntimeError)
        | _ =>
            match summary src, summary pp with                                (* :134-138, :140-145 *)
            | Ok [mn; mx; _; _], Ok [pmn; pmx; std; mean] =>
                rest [{| ln_label := "Binary   Value range"; ln_shown := [mn; mx; std; mean] |};
                      {| ln_label := "Unary    Value range"; ln_shown := [pmn; pmx; std; mean] |}]
            | _, _ => ([], Some RuntimeError)
            end
        end
    end
  else rest [].
