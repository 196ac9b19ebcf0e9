(** Model of the text-file loaders of chaosmagpy/chaos.py:
    [load_CovObs_txtfile] (2766-2856), [load_gufm1_txtfile] (2859-2945),
    [load_CALS7K_txtfile] (2948-3039) and [load_IGRF_txtfile] (3042-3137).

    A file is its text; missing files and the name of the model are in M_Names.
    The numbers of the file are exact rationals (decimal text). *)
From Coq Require Import Reals QArith Qreals List Arith ZArith String Ascii Bool.
From Verif Require Import M_Prelude M_Time M_ND M_Spectrum M_PP M_Model M_Text M_SHC M_FromSpline.
Import ListNotations.
Open Scope R_scope.

(** l[i] of an array *)
Definition item {A} (l : list A) (i : nat) : result A :=
  match nth_error l i with Some x => Ok x | None => Err IndexError end.
(** l[a:b], a not negative *)
Definition slice_to {A} (a : nat) (b : Z) (l : list A) : list A :=
  let b := slice_pos b (List.length l) in firstn (b - a) (skipn a l).
(** l[a:] *)
Definition slice_from {A} (a : Z) (l : list A) : list A := skipn (slice_pos a (List.length l)) l.
(** ' '.join(lines); the line ends belong to the lines *)
Definition join_lines (ls : list text) : text := flat_map (fun l => l ++ nl ++ txt " ")%list ls.

(** data.reshape((r, dim)): the number of rows; -1 is inferred *)
Definition reshape_rows (len : nat) (r dim : Z) : result nat :=
  if (r =? -1)%Z then
    if (dim =? 0)%Z then Err ValueError
    else if (Z.of_nat len mod dim =? 0)%Z then Ok (Z.to_nat (Z.of_nat len / dim)) else Err ValueError
  else if (r <? 0)%Z then Err ValueError
  else if (r * dim =? Z.of_nat len)%Z then Ok (Z.to_nat r) else Err ValueError.

(** coeffs = np.zeros((knots.size - order, dim))
    coeffs[degree:-degree, :] = data.reshape((breaks.size - order, dim))
    (chaos.py 2846-2853, 2935-2942, 3029-3036); the slice is empty for degree
    zero, one row is broadcast.  order >= 1.  Result: rows and entries. *)
Definition insert_rows (nknots nbreaks : nat) (order dim : Z) (data : list Q) : result (nat * (nat -> nat -> R)) :=
  let degree := Z.to_nat (order - 1) in
  let rows := (Z.of_nat nknots - order)%Z in
  if ((rows <? 0) || (dim <? 0))%Z%bool then Err ValueError else
  let rows := Z.to_nat rows in
  let target := if (degree =? 0)%nat then 0%nat else (rows - degree - degree)%nat in
  bind (reshape_rows (List.length data) (Z.of_nat nbreaks - order) dim) (fun given =>
  if negb ((given =? target) || (given =? 1))%nat%bool then Err ValueError else
  Ok (rows, fun i d =>
    if ((degree <=? i) && (i <? degree + target))%nat%bool
    then Q2R (nth ((if (given =? 1)%nat then 0 else i - degree) * Z.to_nat dim + d) data 0%Q)
    else 0)).

(** Common lines of the three loaders of spline files: 2838-2856, 2929-2945,
    3022-3039.  An order below one is rejected here; the code rejects it later
    (unless the model has no coefficients). *)
Definition spline_model (nmax order : Z) (years data : list Q) : result field_model :=
  let dim := (nmax * (nmax + 2))%Z in
  bind (mapM (fun y => dyear_to_mjd y (Some false)) years) (fun breaks =>
  bind (augment_breaks (map Q2R breaks) order) (fun knots =>
  if (order <? 1)%Z then Err ValueError else
  bind (insert_rows (List.length knots) (List.length breaks) order dim data) (fun '(rows, c) =>
  from_bspline rows (Z.to_nat dim) c knots (Z.to_nat order) (Some "internal"%string)))).

(** chaos.py 2823-2856 *)
Definition load_CovObs_txtfile (content : text) : result field_model :=
  let ls := lines content in
  bind (item ls 1) (fun line =>
  let tmp := fromstring line in
  bind (item tmp 0) (fun q0 => bind (item tmp 2) (fun q2 =>
  spline_model (Qtrunc q0) (Qtrunc q2) (skipn 3 tmp) (fromstring (join_lines (skipn 2 ls)))))).

(** chaos.py 2915-2945 *)
Definition load_gufm1_txtfile (content : text) : result field_model :=
  let data := fromstring (join_lines (skipn 1 (lines content))) in
  bind (item data 0) (fun q0 => bind (item data 1) (fun q1 =>
  let nbreaks := (Qtrunc q1 + 4)%Z in
  spline_model (Qtrunc q0) 4 (slice_to 2 (nbreaks + 2) data) (slice_from (nbreaks + 2) data))).

(** lines.replace('D', 'E') *)
Definition replace_D (t : text) : text := map (fun c => if Ascii.eqb c "D" then "E"%char else c) t.
(** chaos.py 2996-3039 *)
Definition load_CALS7K_txtfile (content : text) : result field_model :=
  let data := fromstring (replace_D content) in
  bind (item data 2) (fun _ => bind (item data 4) (fun q4 => bind (item data 6) (fun q6 =>
  let nbreaks := (Qtrunc q6 + 4)%Z in
  spline_model (Qtrunc q4) 4 (slice_to 7 (7 + nbreaks) data) (slice_from (7 + nbreaks) data)))).

(** float(word), for np.array(words, dtype=float) *)
Definition to_float (w : text) : result Q := match parse_float w with Some q => Ok q | None => Err ValueError end.
(** chaos.py 3103-3123: state is the breaks, once read, and the data so far *)
Definition igrf_line (st : result (option (list Q) * list Q)) (line : text) : result (option (list Q) * list Q) :=
  bind st (fun '(breaks, data) =>
  if (prefix (txt "#") (lstrip line) || prefix (txt "c/s") (lstrip line))%bool then Ok (breaks, data) else
  let tmp := words line in
  match breaks with
  | None =>
      bind (mapM to_float (removelast (skipn 3 tmp))) (fun b =>   (* tmp[3:-1] *)
      match b with
      | [] => Err IndexError
      | b0 :: _ => Ok (Some (b ++ [last b b0 + 5])%Q%list, data)
      end)
  | Some b => bind (mapM to_float (skipn 3 tmp)) (fun newline => Ok (Some b, (data ++ newline)%list))
  end).
(** chaos.py 3096-3137 *)
Definition load_IGRF_txtfile (content : text) : result field_model :=
  bind (fold_left igrf_line (lines content) (Ok (None, []))) (fun '(breaks, data) =>
  match breaks with
  | None => Err OtherError                                     (* UnboundLocalError *)
  | Some breaks =>
      let n := List.length breaks in
      if negb (List.length data mod n =? 0)%nat then Err ValueError else
      let dim := (List.length data / n)%nat in
      let entry d i := nth (d * n + i) data 0%Q in
      (* data[:, -1] = 5*data[:, -1] + data[:, -2]; coeffs = data.T *)
      let coeffs i d := Q2R (if (i =? n - 1)%nat then 5 * entry d (n - 1)%nat + entry d (n - 2)%nat else entry d i)%Q in
      bind (mapM (fun y => dyear_to_mjd y (Some true)) breaks) (fun mjd =>
      bind (augment_breaks (map Q2R mjd) 2) (fun knots =>
      from_bspline n dim coeffs knots 2 (Some "internal"%string)))
  end).
