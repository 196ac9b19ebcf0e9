(** Text files with model parameters, independently of the loaders. *)
From Coq Require Import Reals QArith Qreals List Arith ZArith String Ascii Bool.
From Verif Require Import M_Prelude M_ND M_Text M_PP M_Model Spec_PP Spec_Spline.
Import ListNotations.
Open Scope R_scope.

(** The words of the text are the decimal numbers [qs]. *)
Definition number (w : text) (q : Q) : Prop := parse_float w = Some q.
Definition numbers (t : text) (qs : list Q) : Prop := Forall2 number (words t) qs.
(** The same with the exponent letter D of Fortran files. *)
Definition D_to_E (c : ascii) : ascii := if Ascii.eqb c "D" then "E"%char else c.
Definition numbers_D (t : text) (qs : list Q) : Prop := Forall2 (fun w q => number (map D_to_E w) q) (words t) qs.

Definition increasing (l : list Q) : Prop := forall i, (i + 1 < List.length l)%nat -> (nth i l 0 < nth (i + 1) l 0)%Q.

(** Days since 2000 of a decimal year, 365.25 days each *)
Definition days (y : R) : R := (y - 2000) * 365.25.

(** Coefficient d of the model is [f d t] at the time t (in days) for a <= t <= b. *)
Definition takes_values (M : field_model) (dim : nat) (a b : R) (f : nat -> R -> R) : Prop :=
  forall time n, elems time <> [] -> exists r, model_coeffs M time n None XNone = Ok r /\ s_sh r = sh time /\
    s_dim r = match n with None => dim | Some n => Nat.min (n * (n + 2)) dim end /\
    forall idx d, valid (sh time) idx -> (d < dim)%nat -> a <= at_ time idx <= b -> s_at r idx d = Some (f d (at_ time idx)).

(** The internal model of degree nmax whose coefficient d is at the decimal
    year y the sum of data[i, d] B_i(y), with the B-splines of the given order
    on the knots [years] and [data] row by row. *)
Definition is_spline_model (M : field_model) (nmax order : nat) (years data : list Q) : Prop :=
  let dim := (nmax * (nmax + 2))%nat in
  let knots := map Q2R years in
  m_nmax M = Some (Z.of_nat nmax) /\ m_source M = "internal"%string /\
  takes_values M dim (days (nth 0 knots 0)) (days (last knots 0)) (fun d t =>
    spline knots (order - 1) (fun i => Q2R (nth (i * dim + d) data 0%Q)) (List.length years - order) (t / 365.25 + 2000)).

(** COV-OBS: a title line, a line nmax, (unused), order, knots and the coefficients. *)
Definition covobs_file (content : text) (nmax order : nat) (years data : list Q) : Prop :=
  exists title params rest datas qn q1 qo, lines content = title :: params :: rest /\
    numbers params (qn :: q1 :: qo :: years) /\ (qn == inject_Z (Z.of_nat nmax))%Q /\ (qo == inject_Z (Z.of_nat order))%Q /\
    Forall2 numbers rest datas /\ data = List.concat datas /\
    increasing years /\ (order <= List.length years)%nat /\ (2 <= List.length years)%nat /\
    List.length data = ((List.length years - order) * (nmax * (nmax + 2)))%nat.

(** gufm1: a title line, then nmax, number of splines, knots, coefficients. *)
Definition gufm1_file (content : text) (nmax : nat) (years data : list Q) : Prop :=
  exists title rest datas qn qs, lines content = title :: rest /\
    Forall2 numbers rest datas /\ List.concat datas = qn :: qs :: years ++ data /\
    (qn == inject_Z (Z.of_nat nmax))%Q /\ (qs == inject_Z (Z.of_nat (List.length years - 4)))%Q /\
    increasing years /\ (4 <= List.length years)%nat /\
    List.length data = ((List.length years - 4) * (nmax * (nmax + 2)))%nat.

(** CALS7K: start, end, order, (unused), nmax, (unused), number of splines,
    knots, coefficients; Fortran exponents. *)
Definition cals7k_file (content : text) (nmax : nat) (years data : list Q) : Prop :=
  exists ts te qo q3 qn q5 qs, numbers_D content (ts :: te :: qo :: q3 :: qn :: q5 :: qs :: years ++ data) /\
    (qn == inject_Z (Z.of_nat nmax))%Q /\ (qs == inject_Z (Z.of_nat (List.length years - 4)))%Q /\
    increasing years /\ (4 <= List.length years)%nat /\
    List.length data = ((List.length years - 4) * (nmax * (nmax + 2)))%nat.

(** IGRF table.  Comment lines begin with # or c/s, after white space. *)
Definition comment_line (l : text) : Prop :=
  exists s r, Forall (fun c => is_space c = true) s /\ (l = (s ++ txt "#" ++ r)%list \/ l = (s ++ txt "c/s" ++ r)%list).
Inductive without_comments : list text -> list text -> Prop :=
| wc_nil : without_comments [] []
| wc_skip l ls cs : comment_line l -> without_comments ls cs -> without_comments (l :: ls) cs
| wc_keep l ls cs : ~ comment_line l -> without_comments ls cs -> without_comments (l :: ls) (l :: cs).
(** Header: three words, the epochs, one word; a row: three words, a value for
    every epoch and the secular variation. *)
Definition igrf_file (content : text) (epochs : list Q) (table : list (list Q)) : Prop :=
  exists header body, without_comments (lines content) (header :: body) /\
    (exists a b c ws sv, words header = a :: b :: c :: (ws ++ [sv])%list /\ Forall2 number ws epochs) /\
    Forall2 (fun line row => exists a b c ws, words line = a :: b :: c :: ws /\ Forall2 number ws row /\
       List.length row = S (List.length epochs)) body table /\
    epochs <> [] /\ increasing epochs.
(** Epochs and values with the extrapolated end, five years after the last epoch. *)
Definition igrf_epochs (epochs : list Q) : list Q := (epochs ++ [last epochs 0 + 5])%Q%list.
Definition igrf_value (row : list Q) (n i : nat) : R :=
  if (i <? n)%nat then Q2R (nth i row 0%Q) else Q2R (nth (n - 1) row 0%Q) + 5 * Q2R (nth n row 0%Q).
(** The straight line through (t0, v0) and (t1, v1) *)
Definition line_through (t0 v0 t1 v1 t : R) : R := v0 + (t - t0) / (t1 - t0) * (v1 - v0).
