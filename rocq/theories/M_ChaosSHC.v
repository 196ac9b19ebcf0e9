(** Model of [CHAOS.save_shcfile] (chaosmagpy/chaos.py 2164-2239) and of
    [load_CHAOS_shcfile] (2659-2763).

    The model name contains no line break (textwrap.dedent would otherwise
    treat the header differently).  The numbers to be written are given as
    rationals, as for [to_shc]. *)
From Coq Require Import Reals QArith List Arith ZArith String Ascii Bool.
From Verif Require Import M_Prelude M_ND M_Spectrum M_PP M_Model M_Text M_SHC M_SHCModel M_Chaos.
Import ListNotations.
Open Scope R_scope.

(** lines starting with '# ' *)
Definition hash_lines (ls : list text) : text := flat_map (fun l => txt "# " ++ l ++ nl)%list ls.

(** chaos.py 2192-2206; [np]: number of times *)
Definition tdep_header (name : text) (nmin nmax np order step : Z) : text :=
  hash_lines [name;
    txt "Spherical harmonic coefficients of the time-dependent";
    (txt "internal field from degree " ++ print_Z nmin ++ txt " to " ++ print_Z nmax ++ txt ". Coefficients")%list;
    (txt "(units of nT) are given at " ++ print_Z np ++ txt " points in time and were")%list;
    (txt "extracted from a " ++ print_Z order ++ txt "-order piecewise polynomial. The")%list;
    (txt "break points are every " ++ print_Z step ++ txt " step(s) of the time sequence.")%list].
(** chaos.py 2227-2232 *)
Definition static_header (name : text) (nmin nmax : Z) : text :=
  hash_lines [name;
    txt "Spherical harmonic coefficients (units of nT) of the static";
    (txt "internal field model from degree " ++ print_Z nmin ++ txt " to " ++ print_Z nmax ++ txt ". Given at")%list;
    txt "the first break point."].

(** chaos.py 2164-2239 *)
Definition chaos_save_shc (now : text) (fs : file_system) (name : text) (c : chaos) (tq : list Q) (cq : coefs) (filepath : string)
    (model : option string) (leap_year : option bool) : file_system * result unit :=
  let model := match model with None => "tdep"%string | Some s => s end in
  let leap_year := match leap_year with None => false | Some b => b end in
  if (model =? "tdep")%string then
    match ch_tdep c with
    | None => (fs, Err ValueError)
    | Some m =>
        match m_nmax m, b_order (m_base m), b_breaks (m_base m) with
        | Some nmax, Some order, Some breaks =>
            let pieces := (Z.of_nat (List.length breaks) - 1)%Z in
            let step := Z.max (order - 1) 1 in
            let np := if (order =? 1)%Z then pieces else (pieces * step + 1)%Z in
            to_shc now fs name m tq cq filepath (Some leap_year) (Some 1%Z) None (Some (tdep_header name 1 nmax np order step))
        | _, _, _ => (fs, Err AttributeError)
        end
    end
  else if (model =? "static")%string then
    match ch_static c with
    | None => (fs, Err ValueError)
    | Some m =>
        match ch_tdep c with
        | None => (fs, Err AttributeError)                       (* self.model_tdep.nmax *)
        | Some td =>
            match m_nmax td, m_nmax m with
            | Some n, Some nmax =>
                to_shc now fs name m tq cq filepath (Some leap_year) (Some (n + 1)%Z) None (Some (static_header name (n + 1) nmax))
            | _, _ => (fs, Err TypeError)
            end
        end
    end
  else (fs, Ok tt).

(** chaos.py 2731-2763 *)
Definition load_chaos_shc (make_lsq_spline : lsq_fit) (content : text) (leap_year : option bool) : result chaos :=
  let leap_year := match leap_year with None => false | Some b => b end in
  bind (from_shc make_lsq_spline content (Some leap_year) None) (fun m =>
  match b_pieces (m_base m), b_order (m_base m), b_breaks (m_base m), b_coeffs (m_base m) with
  | Some pieces, Some order, Some breaks, Some c =>
      if ((pieces =? 1) && (order =? 1))%Z%bool
      then chaos_init breaks None None (Some c) None None None None None None None MetaNone
      else chaos_init breaks (Some order) (Some c) None None None None None None None None MetaNone
  | _, _, _, _ => Err TypeError
  end).
