(** Model of the plotting functions: chaosmagpy/plot_utils.py 37-273 and
    287-308, [gauss_units] (data_utils.py 661-699), and the plotting methods of
    BaseModel and CHAOS (chaos.py 477-658, 1333-1403, 1481-1516, 2026-2104).

    A figure is the list of its panels with what is passed to Matplotlib's
    plot, pcolormesh and semilogy, the title and the axis or colour-bar label.
    Not modelled: Matplotlib itself (it is assumed to accept these arguments),
    the coastline, grid lines, ticks, and the conversion of the time axis to
    dates (timestamp, see M_Time).  NaN is [None].  Degrees and derivatives are
    not negative. *)
From Coq Require Import Reals List Arith ZArith String Ascii Bool.
From Verif Require Import M_Prelude M_ND M_SynthArr M_PP M_Spectrum M_Model M_Text M_Coord M_Chaos.
Import ListNotations.
Open Scope R_scope.

(** ** Keyword dictionaries: [None] is Python's None *)
Definition dict (A : Type) := list (string * option A).
Fixpoint get {A} (d : dict A) (k : string) : option (option A) :=
  match d with [] => None | (k', v) :: r => if (k =? k')%string then Some v else get r k end.
(** d[k] = v for a key that is there *)
Fixpoint put {A} (d : dict A) (k : string) (v : option A) : dict A :=
  match d with [] => [(k, v)] | (k', v') :: r => if (k =? k')%string then (k', v) :: r else (k', v') :: put r k v end.
(** d.setdefault(k, v): the dictionary and the value returned *)
Definition setdefault {A} (d : dict A) (k : string) (v : option A) : dict A * option A :=
  match get d k with Some w => (d, w) | None => ((d ++ [(k, v)])%list, v) end.
Fixpoint remove {A} (d : dict A) (k : string) : dict A :=
  match d with [] => [] | (k', v) :: r => if (k =? k')%string then r else (k', v) :: remove r k end.
(** d.pop(k) *)
Definition pop {A} (d : dict A) (k : string) : result (option A * dict A) :=
  match get d k with Some v => Ok (v, remove d k) | None => Err KeyError end.

(** plot_utils.py 287-308; the dictionary [keywords] is changed in place and returned *)
Definition defaultkeys {A} (defaults keywords : dict A) : dict A :=
  fold_left (fun kw '(key, value) =>
    let '(kw, current) := setdefault kw key value in
    match current with None => put kw key value | Some _ => kw end) defaults keywords.

(** Values of keywords, as far as they are used *)
Inductive pv :=
| VStr (s : string) | VStrs (l : list string) | VPair (a b : Z) | VInt (z : Z) | VNum (x : option R)
| VFun (f : nd (option R) -> result (option R)) | VOther (n : nat).

(** ** Figures *)
(** [pn_axes]: time, or colatitude and longitude, or degrees; [pn_kw]: the
    keywords passed on to Matplotlib *)
Record panel := mkpanel { pn_axes : list (nd R); pn_data : nd (option R); pn_title : string; pn_label : option pv; pn_kw : dict pv }.
(** number of axes, and those with contents in the order of the axes *)
Record figure := mkfigure { fg_axes : nat; fg_panels : list panel }.

(** iteration over the titles *)
Fixpoint characters (s : string) : list string := match s with EmptyString => [] | String c r => String c EmptyString :: characters r end.
Definition iterate (v : option pv) : result (list string) :=
  match v with Some (VStrs l) => Ok l | Some (VStr s) => Ok (characters s) | _ => Err TypeError end.

(** layout[0]*layout[1] != n, and plt.subplots(layout[0], layout[1]) *)
Definition check_layout (v : option pv) (n : nat) : result unit :=
  match v with
  | Some (VPair a b) => if negb (a * b =? Z.of_nat n)%Z then Err ValueError
                        else if ((a <? 1) || (b <? 1))%Z%bool then Err ValueError else Ok tt
  | _ => Err TypeError
  end.

(** zip of the axes, the components and the titles *)
Definition subplots (args : list (nd (option R))) (titles : list string) : list (nd (option R) * string) := combine args titles.

(** plot_utils.py 37-105.  The figure size is [VOther 0]. *)
Definition plot_timeseries (time : nd R) (args : list (nd (option R))) (kwargs : dict pv) : result figure :=
  let n := List.length args in
  let defaults := [("figsize", Some (VOther 0)); ("titles", Some (VStrs (repeat ""%string n)));
                   ("ylabel", Some (VStr "")); ("layout", Some (VPair (Z.of_nat n) 1))]%string in
  let kwargs := defaultkeys defaults kwargs in
  bind (pop kwargs "figsize") (fun '(_, kwargs) =>
  bind (pop kwargs "layout") (fun '(layout, kwargs) =>
  bind (pop kwargs "titles") (fun '(titles, kwargs) =>
  bind (pop kwargs "ylabel") (fun '(ylabel, kwargs) =>
  bind (check_layout layout n) (fun _ =>
  bind (iterate titles) (fun titles =>
  Ok (mkfigure n (map (fun '(component, title) => mkpanel [time] component title ylabel kwargs) (subplots args titles))))))))).

(** np.amax(np.abs(x)); NaN propagates *)
Definition amax_abs (x : nd (option R)) : result (option R) :=
  match elems x with
  | [] => Err ValueError
  | _ :: _ => Ok (fold_left (fun acc v => match acc, v with Some a, Some u => Some (Rmax a (Rabs u)) | _, _ => None end) (elems x) (Some 0))
  end.
Definition negate (x : option R) : option R := option_map Ropp x.

(** plot_utils.py 187-213: the loop; [kwargs] keeps the limits of the first panel *)
Fixpoint draw_maps (theta phi : nd R) (limiter : nd (option R) -> result (option R)) (label : option pv) (kwargs : dict pv)
    (l : list (nd (option R) * string)) : result (list panel) :=
  match l with
  | [] => Ok []
  | (component, title) :: l =>
      bind (limiter component) (fun v =>
      let kwargs := fst (setdefault kwargs "vmax" (Some (VNum v))) in
      let kwargs := fst (setdefault kwargs "vmin" (Some (VNum (negate v)))) in
      bind (draw_maps theta phi limiter label kwargs l) (fun panels =>
      Ok (mkpanel [theta; phi] component title label kwargs :: panels)))
  end.

(** plot_utils.py 108-215 *)
Definition plot_maps (theta phi : nd R) (args : list (nd (option R))) (kwargs : dict pv) : result figure :=
  let n := List.length args in
  let defaults := [("figsize", Some (VOther 0)); ("titles", Some (VStrs (repeat ""%string n))); ("label", Some (VStr ""));
                   ("layout", Some (VPair (Z.of_nat n) 1)); ("cmap", Some (VStr "PuOr_r")); ("limiter", Some (VFun amax_abs));
                   ("projection", Some (VStr "mollweide")); ("shading", Some (VStr "auto"))]%string in
  let kwargs := defaultkeys defaults kwargs in
  bind (pop kwargs "figsize") (fun '(_, kwargs) =>
  bind (pop kwargs "titles") (fun '(titles, kwargs) =>
  bind (pop kwargs "label") (fun '(label, kwargs) =>
  bind (pop kwargs "limiter") (fun '(limiter, kwargs) =>
  bind (pop kwargs "projection") (fun '(_, kwargs) =>
  bind (pop kwargs "layout") (fun '(layout, kwargs) =>
  bind (check_layout layout n) (fun _ =>
  bind (iterate titles) (fun titles =>
  bind (draw_maps theta phi (match limiter with Some (VFun f) => f | _ => fun _ => Err TypeError end) label kwargs (subplots args titles))
    (fun panels => Ok (mkfigure n panels)))))))))).

(** plot_utils.py 218-273: also the array of the caller afterwards; titles
    that are no strings are not modelled (TypeError) *)
Definition plot_power_spectrum (spectrum : nd (option R)) (kwargs : dict pv) : nd (option R) * result figure :=
  let defaults := [("figsize", Some (VOther 0)); ("titles", Some (VStr "")); ("ylabel", Some (VStr ""))]%string in
  let kwargs := defaultkeys defaults kwargs in
  match (bind (pop kwargs "figsize") (fun '(_, kwargs) =>
         bind (pop kwargs "titles") (fun '(titles, kwargs) =>
         bind (pop kwargs "ylabel") (fun '(ylabel, kwargs) =>
         Ok (titles, ylabel, kwargs))))) with
  | Err e => (spectrum, Err e)
  | Ok (titles, ylabel, kwargs) =>
      match sh spectrum with
      | [] => (spectrum, Err IndexError)
      | N :: _ =>
          let degrees := vec 0 (map (fun i => INR (i + 1)) (seq 0 N)) in
          let spectrum := mknd (sh spectrum) (fun i => match at_ spectrum i with Some v => if Req_EM_T v 0 then None else Some v | None => None end) in
          (spectrum, match titles with
                     | Some (VStr s) => Ok (mkfigure 1 [mkpanel [degrees] spectrum s ylabel kwargs])
                     | _ => Err TypeError
                     end)
      end
  end.

(** ** data_utils.py 661-699 *)
Definition str_int (z : Z) : string := string_of_list_ascii (print_Z z).
Definition gauss_units (deriv : option Z) : string :=
  let deriv := match deriv with None => 0%Z | Some d => d end in
  if (deriv =? 0)%Z then "nT"
  else if (deriv =? 1)%Z then "$\mathrm{{nT}}/\mathrm{{yr}}$"        (* without .format *)
  else ("$\mathrm{nT}/\mathrm{yr}^{" ++ str_int deriv ++ "}$")%string.

(** ** Methods *)
(** np.linspace(a, b, num=n), n > 1 *)
Definition linspace (a b : R) (n : nat) : nd R := vec 0 (map (fun i => a + INR i * ((b - a) / INR (n - 1))) (seq 0 n)).

(** integer and extrapolation arguments; other types are not modelled
    (TypeError) *)
Definition int_arg (v : option pv) : result (option Z) :=
  match v with None => Ok None | Some (VInt z) => Ok (Some z) | _ => Err TypeError end.
Definition extrap_arg (v : option pv) : result extrap :=
  match v with None => Ok XNone | Some (VStr s) => Ok (XStr s) | Some (VInt z) => Ok (XInt z) | _ => Err TypeError end.
Definition to_nat_opt (z : option Z) : option nat := option_map Z.to_nat z.
Definition int_value (z : option Z) : option pv := option_map VInt z.

Definition components (F : ofield) : list (nd (option R)) := [mknd (o_sh F) (o_r F); mknd (o_sh F) (o_t F); mknd (o_sh F) (o_p F)].

(** chaos.py 596-658 *)
Definition model_plot_timeseries (oob a : R) (m : field_model) (radius theta phi : nd R) (kwargs : dict pv) : result figure :=
  let defaults := [("deriv", Some (VInt 0)); ("nmax", int_value (m_nmax m)); ("titles", Some (VStrs ["$B_r$"; "$B_\theta$"; "$B_\phi$"])); ("extrapolate", None)]%string in
  let kwargs := defaultkeys defaults kwargs in
  bind (pop kwargs "nmax") (fun '(nmax, kwargs) =>
  bind (pop kwargs "deriv") (fun '(deriv, kwargs) =>
  bind (pop kwargs "extrapolate") (fun '(extrapolate, kwargs) =>
  bind (int_arg nmax) (fun nmax => bind (int_arg deriv) (fun deriv => bind (extrap_arg extrapolate) (fun e =>
  let kwargs := fst (setdefault kwargs "ylabel" (Some (VStr (gauss_units deriv)))) in
  match b_breaks (m_base m) with
  | None => Err TypeError
  | Some [] => Err IndexError
  | Some ((b :: _) as breaks) =>
      let time := linspace b (last breaks b) 500 in
      bind (model_values oob a m time radius theta phi (to_nat_opt nmax) (to_nat_opt deriv) None e) (fun F =>
      plot_timeseries time (components F) kwargs)
  end)))))).

(** the title of a map, chaos.py 570-572 *)
Definition map_title (component : string) (nmax deriv : Z) : string :=
  (component ++ " ($n\leq" ++ str_int nmax ++ "$, deriv=" ++ str_int deriv ++ ")")%string.

(** chaos.py 528-594 *)
Definition model_plot_maps (oob a : R) (m : field_model) (time radius : nd R) (kwargs : dict pv) : result figure :=
  let defaults := [("deriv", Some (VInt 0)); ("nmax", int_value (m_nmax m))]%string in
  let kwargs := defaultkeys defaults kwargs in
  bind (pop kwargs "nmax") (fun '(nmax, kwargs) =>
  bind (pop kwargs "deriv") (fun '(deriv, kwargs) =>
  bind (int_arg nmax) (fun nmax => bind (int_arg deriv) (fun deriv =>
  match nmax, deriv, m_nmax m with
  | Some nmax, Some deriv, Some N =>
      let titles := [map_title "$B_r$" nmax deriv; map_title "$B_\theta$" nmax deriv; map_title "$B_\phi$" nmax deriv] in
      let kwargs := fst (setdefault kwargs "label" (Some (VStr (gauss_units (Some deriv))))) in
      let kwargs := fst (setdefault kwargs "titles" (Some (VStrs titles))) in
      let nmax := if (N <? nmax)%Z then N else nmax in
      let theta := linspace 1 179 320 in
      let phi := linspace (-180) 180 640 in
      bind (model_values oob a m time radius theta phi (Some (Z.to_nat nmax)) (Some (Z.to_nat deriv)) (Some true) XNone) (fun F =>
      plot_maps theta phi (components F) kwargs)
  | _, _, _ => Err TypeError
  end)))).

(** chaos.py 477-526; the spectrum is a new array *)
Definition model_plot_power_spectrum (a : R) (m : field_model) (time : nd R) (kwargs : dict pv) : result figure :=
  let defaults := [("radius", None); ("deriv", Some (VInt 0)); ("nmax", int_value (m_nmax m)); ("titles", Some (VStr "spatial power spectrum"))]%string in
  let kwargs := defaultkeys defaults kwargs in
  bind (pop kwargs "radius") (fun '(radius, kwargs) =>
  bind (pop kwargs "nmax") (fun '(nmax, kwargs) =>
  bind (pop kwargs "deriv") (fun '(deriv, kwargs) =>
  bind (int_arg nmax) (fun nmax => bind (int_arg deriv) (fun deriv =>
  let kwargs := fst (setdefault kwargs "ylabel" (Some (VStr ("(" ++ gauss_units deriv ++ ")$^2$")%string))) in
  bind (match radius with None => Ok None | Some (VNum (Some r)) => Ok (Some r) | _ => Err TypeError end) (fun radius =>
  bind (model_spectrum a m time radius (to_nat_opt nmax) (to_nat_opt deriv) XNone) (fun S =>
  snd (plot_power_spectrum S kwargs)))))))).

(** chaos.py 1333-1368, 1370-1403 *)
Definition plot_timeseries_tdep (E : env) (c : chaos) (radius theta phi : nd R) (kwargs : dict pv) : result figure :=
  match ch_tdep c with
  | None => Err ValueError
  | Some m => model_plot_timeseries (e_oob E) (e_rsurf E) m radius theta phi kwargs
  end.
Definition plot_maps_tdep (E : env) (c : chaos) (time radius : nd R) (nmax deriv : option Z) (kwargs : dict pv) : result figure :=
  match ch_tdep c with
  | None => Err ValueError
  | Some m => model_plot_maps (e_oob E) (e_rsurf E) m time radius (kwargs ++ [("nmax", int_value nmax); ("deriv", int_value deriv)]%string)
  end.
(** chaos.py 1481-1516 *)
Definition plot_maps_static (E : env) (c : chaos) (radius : nd R) (nmax : option Z) (kwargs : dict pv) : result figure :=
  match ch_static c with
  | None => Err ValueError
  | Some m =>
      let defaults := [("cmap", Some (VStr "nio")); ("deriv", Some (VInt 0)); ("vmax", Some (VNum (Some 200))); ("vmin", Some (VNum (Some (-200))))]%string in
      let kwargs := defaultkeys defaults kwargs in
      model_plot_maps (e_oob E) (e_rsurf E) m (scalar (static_time m)) radius (("nmax"%string, int_value nmax) :: kwargs)
  end.

(** chaos.py 2026-2104 *)
Definition plot_maps_external (E : env) (c : chaos) (time radius : nd R) (nmax : option nat) (reference source : option string) : result figure :=
  let reference := match reference with None => "all"%string | Some s => lower s end in
  let source := match source with None => "all"%string | Some s => lower s end in
  let theta := linspace 1 179 320 in
  let phi := linspace (-180) 180 721 in
  let gsm := synth_values_gsm E c time radius theta phi nmax (Some source) (Some true) in
  let sm := synth_values_sm E c time radius theta phi None None nmax (Some source) (Some true) in
  let field_title comp := ((comp ++ " (" ++ (if (reference =? "all") then "" else if (reference =? "gsm") then "GSM " else "SM ") ++ source ++ " sources)")%string) in
  bind (if (reference =? "all")%string then bind gsm (fun G => bind sm (fun S => field_add G S))
        else if (reference =? "gsm")%string then gsm
        else if (reference =? "sm")%string then sm
        else Err ValueError) (fun F =>
  plot_maps theta phi (components (lift_field F))
    [("titles", Some (VStrs [field_title "$B_r$"; field_title "$B_\theta$"; field_title "$B_\phi$"]%string)); ("label", Some (VStr (gauss_units (Some 0%Z))))]%string).
