(** Model of [BaseModel.to_shc] (chaosmagpy/chaos.py 694-748) and of
    [BaseModel.from_shc] (750-829); SciPy's least-squares spline fit is a
    parameter.  Exact arithmetic. *)
From Coq Require Import Reals QArith Qreals List Arith ZArith String Ascii Bool.
From Verif Require Import M_Prelude M_ND M_Spectrum M_PP M_Model M_FromSpline M_Text M_SHC.
Import ListNotations.
Open Scope R_scope.

(** chaos.py 732-733: np.arange(start, end, (end - start) / step) has [step]
    elements; a zero step is an error. *)
Definition arange_step (start end_ : R) (step : nat) : result (list R) :=
  if Req_EM_T start end_ then Err ValueError
  else Ok (map (fun i => start + INR i * ((end_ - start) / INR step)) (seq 0 step)).
(** chaos.py 729-735 *)
Fixpoint shc_sites (breaks : list R) (step : nat) : result (list R) :=
  match breaks with
  | [] => Err IndexError
  | a :: rest =>
      match rest with
      | [] => Ok [a]
      | b :: _ => bind (arange_step a b step) (fun l => bind (shc_sites rest step) (fun m => Ok (l ++ m)))
      end
  end.
(** chaos.py 719-735 *)
Definition to_shc_times (order : Z) (breaks : list R) : result (list R) :=
  let step := Z.to_nat (Z.max (order - 1) 1) in
  if (order =? 1)%Z then Ok (removelast breaks) else shc_sites breaks step.
(** chaos.py 716-737: the times and coefficients handed to save_shcfile *)
Definition to_shc_data (m : field_model) : result (list R * cres) :=
  match b_coeffs (m_base m), b_order (m_base m), b_breaks (m_base m), m_nmax m with
  | Some _, Some order, Some breaks, Some nmax =>
      bind (to_shc_times order breaks) (fun times =>
      bind (model_coeffs m (vec 0 times) (Some (Z.to_nat nmax)) None XNone) (fun r => Ok (times, r)))
  | None, _, _, _ => Err ValueError
  | _, _, _, _ => Err TypeError
  end.

(** The numbers of to_shc_data as rationals. *)
Definition exported (m : field_model) (tq : list Q) (cq : coefs) : Prop :=
  exists times r, to_shc_data m = Ok (times, r) /\ map Q2R tq = times /\
    c_one_dim cq = false /\ c_rows cq = List.length times /\ c_cols cq = s_dim r /\
    forall i j, (i < List.length times)%nat -> (j < s_dim r)%nat -> s_at r [i] j = Some (Q2R (c_at cq i j)).

(** chaos.py 711-748 for a model with the exported numbers [tq], [cq] *)
Definition to_shc (now : text) (fs : file_system) (name : text) (m : field_model) (tq : list Q) (cq : coefs) (filepath : string)
    (leap_year : option bool) (nmin nmax : option Z) (header : option text) : file_system * result unit :=
  let leap_year := match leap_year with None => false | Some b => b end in
  let header := match header with None => (txt "# " ++ name ++ nl)%list | Some h => h end in
  let nmin := match nmin with None => 1%Z | Some n => n end in
  let nmax := match nmax with None => m_nmax m | Some n => Some n end in
  save_shcfile now fs (TVec tq) cq (b_order (m_base m)) (Some filepath) (Some nmin) nmax (Some leap_year) (Some header).

(** The coefficients array of an SHC file: coeffs.T padded with zeros for the
    degrees below nmin, chaos.py 788-811; rows are times. *)
Definition shc_padded (s : shc) (nmin nmax : Z) : result (nat * (nat -> nat -> R)) :=
  let value i j := Q2R (nth i (nth j (l_rows s) []) 0%Q) in
  let Nc := List.length (l_rows s) in
  if (1 <? nmin)%Z then
    let first := Z.to_nat (nmin * nmin - 1) in
    let D := Z.to_nat (nmax * (nmax + 2)) in
    if (nmax * (nmax + 2) <? 0)%Z then Err ValueError else        (* np.zeros of negative size *)
    if (D - first =? Nc)%nat then Ok (D, fun i j => if (j <? first)%nat then 0 else value i (j - first)%nat)
    else if (Nc =? 1)%nat then Ok (D, fun i j => if (j <? first)%nat then 0 else value i 0%nat)    (* broadcast *)
    else Err ValueError
  else Ok (Nc, value).

(** time[::step] for step >= 1 *)
Definition every_step (time : list R) (step : nat) : list R :=
  map (fun i => nth (i * step) time 0) (seq 0 ((List.length time - 1) / step + 1)).

(** scipy.interpolate.make_lsq_spline(x, y, t, k) for y of shape (len(x), dim):
    coefficients [row][column].  Not modelled; a parameter of from_shc. *)
Definition lsq_fit := list R -> nat -> (nat -> nat -> R) -> list R -> nat -> result (nat -> nat -> R).

(** chaos.py 750-829.  The name is in M_Names. *)
Definition from_shc (make_lsq_spline : lsq_fit) (content : text) (leap_year : option bool) (source : option string) : result field_model :=
  let leap_year := match leap_year with None => false | Some b => b end in
  bind (load_shcfile content (Some leap_year) None) (fun s =>
  match l_params s with
  | nmin :: nmax :: _ :: order :: step :: _ =>
      let step := Z.to_nat (Z.max step 1) in
      let time := map Q2R (l_time s) in
      match time with
      | [] => Err IndexError                                     (* time[-1], breaks[0] *)
      | t0 :: _ =>
          if (order =? 1)%Z then
            bind (shc_padded s nmin nmax) (fun '(dim, coeffs) =>
            Ok (model_init (Some (time ++ [last time t0])%list) (Some order)
                  (Some (mkc3 1 (List.length time) dim (fun _ i j => coeffs i j))) source))
          else
            let breaks := every_step time step in
            bind (shc_padded s nmin nmax) (fun '(dim, coeffs) =>
            let end_ := ((List.length time - 1) / step * step + 1)%nat in
            bind (augment_breaks breaks order) (fun knots =>
            if (order <? 1)%Z then Err ValueError else           (* negative degree *)
            bind (make_lsq_spline (firstn end_ time) dim coeffs knots (Z.to_nat (order - 1))) (fun c =>
            from_bspline (List.length knots - Z.to_nat order) dim c knots (Z.to_nat order) source)))
      end
  | _ => Err KeyError
  end).
