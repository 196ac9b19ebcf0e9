(** Model of [BaseModel] (chaosmagpy/chaos.py 311-475) and of
    [synth_from_pp] (chaosmagpy/model_utils.py 266-344).

    Exact arithmetic; warnings dropped.  NaN is [None]: a coefficient that is
    NaN makes every component NaN that uses it, and whether the coefficients
    are NaN depends on the time only. *)
From Coq Require Import Reals List Arith ZArith String Bool.
From Verif Require Import M_Prelude M_ND M_Legendre M_Synth M_SynthArr M_PP M_Spectrum.
Import ListNotations.
Open Scope R_scope.

Record field_model := mkmodel { m_base : base; m_nmax : option Z; m_source : string }.

(** chaos.py 311-328; [int(np.sqrt(dim+1) - 1)] exact *)
Definition model_init (breaks : option (list R)) (order : option Z) (coeffs : option c3) (source : option string) : field_model :=
  let b := base_init breaks order coeffs in
  mkmodel b (option_map degree_of_size (b_dim b)) (match source with None => "internal"%string | Some s => s end).

(** chaos.py 332-379; nmax not negative *)
Definition model_coeffs (m : field_model) (time : nd R) (nmax : option nat) (deriv : option nat) (e : extrap) : result cres :=
  synth_coeffs (m_base m) time (option_map (fun n => n * (n + 2))%nat nmax) deriv e.

(** field with NaN *)
Record ofield := mkofield { o_sh : list nat; o_r : list nat -> option R; o_t : list nat -> option R; o_p : list nat -> option R }.

(** model_utils.synth_values applied to coefficients with NaN *)
Definition nan_synth (oob a : R) (r : cres) (radius theta phi : nd R) (nmax : nat) (source : string) (grid : bool) : result ofield :=
  let c := mkcarr (s_sh r) (s_dim r) (fun x k => match s_at r x k with Some v => v | None => 0 end) in
  let guard (f : list nat -> R) x := match s_at r (bidx (s_sh r) x) 0%nat with None => None | Some _ => Some (f x) end in
  bind (synth_values oob a c radius theta phi None (Some (Z.of_nat nmax)) None (Some source) grid) (fun F =>
  Ok (mkofield (f_sh F) (guard (f_r F)) (guard (f_t F)) (guard (f_p F)))).

(** chaos.py 381-432 *)
Definition model_values (oob a : R) (m : field_model) (time radius theta phi : nd R) (nmax deriv : option nat)
    (grid : option bool) (e : extrap) : result ofield :=
  match m_nmax m with
  | None => match nmax with None => Err ValueError | Some _ => Err TypeError end     (* coefficients are missing; n > None *)
  | Some N =>
      let nmax := match nmax with None => Z.to_nat N | Some n => if (N <? Z.of_nat n)%Z then Z.to_nat N else n end in
      bind (model_coeffs m time (Some nmax) deriv e) (fun r =>
      nan_synth oob a r radius theta phi nmax (m_source m) (match grid with None => false | Some g => g end))
  end.

(** model_utils.power_spectrum applied to coefficients with NaN: a sum of
    squares with a NaN is NaN *)
Definition is_nan (v : option R) : bool := match v with None => true | Some _ => false end.
Definition nan_spectrum (a : R) (r : cres) (radius : R) (source : string) : result (nd (option R)) :=
  bind (power_spectrum a (mknd (s_sh r ++ [s_dim r]) (fun x => match s_at r (removelast x) (last x 0%nat) with Some v => v | None => 0 end))
    (Some radius) None (Some source) None) (fun S =>
  Ok (mknd (sh S) (fun x =>
    let n := (last x 0 + 1)%nat in
    if existsb is_nan (map (s_at r (removelast x)) (seq (n ^ 2 - 1) (2 * n + 1))) then None else Some (at_ S x)))).

(** chaos.py 434-475, radius given or the surface radius *)
Definition model_spectrum (a : R) (m : field_model) (time : nd R) (radius : option R) (nmax deriv : option nat) (e : extrap) : result (nd (option R)) :=
  let radius := match radius with None => a | Some r => r end in
  bind (model_coeffs m time nmax deriv e) (fun r => nan_spectrum a r radius (m_source m)).

(** model_utils.py 266-344; [order] is not used by the code. *)
Definition synth_from_pp (oob a : R) (breaks : list R) (order : Z) (coeffs : c3) (time radius theta phi : nd R)
    (nmax : option nat) (source : option string) (deriv : option nat) (grid : option bool) : result ofield :=
  let N := degree_of_size (c_d coeffs) in
  let nmax := match nmax with None => Z.to_nat N | Some n => if (N <? Z.of_nat n)%Z then Z.to_nat N else n end in
  let source := match source with None => "internal"%string | Some s => s end in
  let deriv := match deriv with None => 0%nat | Some n => n end in
  let PP := pp_deriv (mkpp breaks (c_k coeffs) (c_v coeffs) false) deriv in
  let r := mkcres (sh time) (Nat.min (nmax * (nmax + 2)) (c_d coeffs))
             (fun i d => option_map (fun v => v * 365.25 ^ deriv) (pp_eval PP 0 (at_ time i) d)) in
  nan_synth oob a r radius theta phi nmax source (match grid with None => false | Some g => g end).
