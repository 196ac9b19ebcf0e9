(** Vocabulary for the statements about plots. *)
From Coq Require Import Reals List Arith ZArith String Bool.
From Verif Require Import M_Prelude M_ND M_Model M_Plot.
Import ListNotations.
Open Scope R_scope.

(** Python dictionaries have every key once. *)
Definition keys {A} (d : dict A) : list string := map fst d.
Definition is_dict {A} (d : dict A) : Prop := NoDup (keys d).

(** What the caller passed for [k]: nothing or None count as not chosen. *)
Definition unset {A} (kw : dict A) (k : string) : Prop := get kw k = None \/ get kw k = Some None.
Definition passed {A} (kw : dict A) (k : string) (v : A) : Prop := get kw k = Some (Some v).
(** [v] is the value the caller passed, or [d] if there is none. *)
Definition passed_or {A} (kw : dict A) (k : string) (d v : A) : Prop := passed kw k v \/ unset kw k /\ v = d.

(** The titles [ts] suffice for [n] subplots. *)
Definition titles_ok (kw : dict pv) (n : nat) (ts : list string) : Prop :=
  passed kw "titles" (VStrs ts) /\ (n <= List.length ts)%nat \/ unset kw "titles" /\ ts = repeat ""%string n.
(** The layout has room for exactly [n] subplots. *)
Definition layout_ok (kw : dict pv) (n : nat) : Prop :=
  (1 <= n)%nat /\ (unset kw "layout" \/ exists a b, passed kw "layout" (VPair a b) /\ (1 <= a)%Z /\ (1 <= b)%Z /\ (a * b = Z.of_nat n)%Z).

(** [m] is the largest absolute value in [x]. *)
Definition largest_abs (x : nd (option R)) (m : R) : Prop :=
  (forall i, valid (sh x) i -> exists v, at_ x i = Some v /\ Rabs v <= m) /\ exists i v, valid (sh x) i /\ at_ x i = Some v /\ Rabs v = m.

(** [n] equidistant points from [a] to [b] *)
Definition equidistant (g : nd R) (a b : R) (n : nat) : Prop :=
  sh g = [n] /\ at_ g [0%nat] = a /\ at_ g [(n - 1)%nat] = b /\ forall i, (i + 1 < n)%nat -> at_ g [(i + 1)%nat] - at_ g [i] = (b - a) / INR (n - 1).

(** The value passed for [k] (also None), or the number [v] if nothing is passed *)
Definition limit (kw : dict pv) (k : string) (v : option R) : option (option pv) := match get kw k with Some w => Some w | None => Some (Some (VNum v)) end.

(** A figure of three panels with the components of the field [F] *)
Definition shows (fig : figure) (axes : list (nd R)) (F : ofield) (ts : list string) (label : pv) : Prop :=
  fg_axes fig = 3%nat /\ List.length (fg_panels fig) = 3%nat /\
  forall i p, nth_error (fg_panels fig) i = Some p ->
    pn_axes p = axes /\ Some (pn_data p) = nth_error [mknd (o_sh F) (o_r F); mknd (o_sh F) (o_t F); mknd (o_sh F) (o_p F)] i /\ Some (pn_title p) = nth_error ts i /\ pn_label p = Some label.
