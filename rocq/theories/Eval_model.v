(** Model of /repo/lib/daeso/pgc/evaluate.py: AlignEval, AlignCountsTable, AlignCounts.
    Whole evaluations and printing (258-405, 487-680) are in Evalrun_model. *)
From Coq Require Import QArith.
From Verif Require Import Py Align_model.
Open Scope nat_scope.
Set Implicit Arguments.

(** evaluate.py 685-699: AlignCounts.counts, initially all 0. *)
Record counts := { c_true : nat; c_pred : nat; c_common : nat }.
Definition zero_counts : counts := {| c_true := 0; c_pred := 0; c_common := 0 |}.
Definition add_true (k : nat) (c : counts) :=
  {| c_true := c_true c + k; c_pred := c_pred c; c_common := c_common c |}.
Definition add_pred (k : nat) (c : counts) :=
  {| c_true := c_true c; c_pred := c_pred c + k; c_common := c_common c |}.
Definition add_common (k : nat) (c : counts) :=
  {| c_true := c_true c; c_pred := c_pred c; c_common := c_common c + k |}.

Section Eval.
Variables N R : Type.
Variable neqb : N -> N -> bool.
Variable reqb : R -> R -> bool.
Variable truthy : R -> bool.          (* Python truth value of a relation label *)

(** Keys of AlignEval: the relations and [any_rel] ("__any_rel__", here None, so a relation that is
    itself called "__any_rel__" is not modelled), evaluate.py 181-182. *)
Definition key := option R.
Definition keqb (a b : key) : bool :=
  match a, b with
  | None, None => true
  | Some r, Some r' => reqb r r'
  | _, _ => false
  end.

(** The last row of every table of an AlignEval instance.  The code keeps one table (list of rows)
    per key; we keep the list of rows, each a dict from keys (transposed representation). *)
Definition row := list (key * counts).

(** evaluate.py 186-192 and 222-223: a new all-zero row for each table. *)
Definition zero_row (relations : list R) : row :=
  fold_left (fun d r => dset keqb d (Some r) zero_counts) relations [(None, zero_counts)].

(** [self[k][-1].counts[...] += n]; KeyError if there is no table for [k]. *)
Definition upd (r : row) (k : key) (f : counts -> counts) : res row :=
  c <- dread keqb r k ;; Ok (dset keqb r k (f c)).

(** evaluate.py 229-241: body of the loop over the true alignments; state (true_align_count, row). *)
Definition true_step (pred_gp : digraph N R) (st : nat * row) (e : (N * N) * R) : res (nat * row) :=
  let n := fst st + 1 in
  let true_rel := snd e in
  r1 <- upd (snd st) (Some true_rel) (add_true 1) ;;
  match get_align neqb pred_gp (fst (fst e)) (snd (fst e)) with
  | Some pred_rel =>
      if truthy pred_rel then
        r2 <- upd r1 None (add_common 1) ;;
        if reqb pred_rel true_rel then
          r3 <- upd r2 (Some true_rel) (add_common 1) ;; Ok (n, r3)
        else Ok (n, r2)
      else Ok (n, r1)
  | None => Ok (n, r1)
  end.

(** evaluate.py 249-251: body of the loop over the predicted alignments. *)
Definition pred_step (st : nat * row) (e : (N * N) * R) : res (nat * row) :=
  r1 <- upd (snd st) (Some (snd e)) (add_pred 1) ;;
  Ok (fst st + 1, r1).

(** evaluate.py 225-254: body of the loop over the zipped graph pairs. *)
Definition pair_step (r : row) (gp : digraph N R * digraph N R) : res row :=
  st <- foldM (true_step (snd gp)) (0, r) (alignments reqb (fst gp) []) ;;
  r1 <- upd (snd st) None (add_true (fst st)) ;;
  st' <- foldM pred_step (0, r1) (alignments reqb (snd gp) []) ;;
  upd (snd st') None (add_pred (fst st')).

(** evaluate.py 207-255: [add] computes one new row from two corpora. *)
Definition eval_row (relations : list R) (true_pgc pred_pgc : list (digraph N R)) : res row :=
  if negb (length true_pgc =? length pred_pgc) then Err AssertionError
  else foldM pair_step (zero_row relations) (combine true_pgc pred_pgc).
End Eval.

(** evaluate.py 707-755: precision, recall, F.  Float quotients are exact rationals; a zero
    denominator raises ZeroDivisionError in the code, which is caught and gives 0. *)
Definition qnat (n : nat) : Q := inject_Z (Z.of_nat n).
Definition safe_div (a b : Q) : Q := if Qeq_bool b 0 then 0%Q else (a / b)%Q.
Definition prec (c : counts) : Q := safe_div (qnat (c_common c)) (qnat (c_pred c)).
Definition rec (c : counts) : Q := safe_div (qnat (c_common c)) (qnat (c_true c)).
Definition f_score (beta : Q) (c : counts) : res Q :=
  if Qle_bool 0 beta && Qle_bool beta 1 then
    Ok (safe_div ((beta * beta + 1) * prec c * rec c)%Q (beta * beta * prec c + rec c)%Q)
  else Err AssertionError.

(** evaluate.py 497-506, 555-565: sums of counts over the rows of one table and the micro mean
    measures computed from them; 528-536: the macro mean of a measure (ZeroDivisionError when the
    table is empty). *)
Definition sum_counts (rows : list counts) : counts :=
  {| c_true := list_sum (map c_true rows);
     c_pred := list_sum (map c_pred rows);
     c_common := list_sum (map c_common rows) |}.
Definition qsum (l : list Q) : Q := fold_right Qplus 0%Q l.
Definition macro_mean (measure : counts -> Q) (rows : list counts) : res Q :=
  match rows with
  | [] => Err ZeroDivisionError
  | _ => Ok (qsum (map measure rows) / qnat (length rows))%Q
  end.
(** evaluate.py 508-526 / 538-553: variance with n-1, 0 when there is one row. *)
Definition variance (values : list Q) (mean : Q) : Q :=
  safe_div (qsum (map (fun v => (v - mean) * (v - mean)) values))%Q (qnat (length values) - 1)%Q.
