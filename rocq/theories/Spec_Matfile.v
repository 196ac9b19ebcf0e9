(** Equality of models as far as they can be observed: coefficient arrays with
    the same shape and the same elements. *)
From Coq Require Import Reals List Arith ZArith String.
From Verif Require Import M_PP M_Model M_Chaos.
Import ListNotations.
Open Scope nat_scope.

Definition same_coeffs (a b : c3) : Prop :=
  c_k a = c_k b /\ c_m a = c_m b /\ c_d a = c_d b /\
  forall r i d, r < c_k a -> i < c_m a -> d < c_d a -> c_v a r i d = c_v b r i d.

Definition same_base (a b : base) : Prop :=
  b_breaks a = b_breaks b /\ b_pieces a = b_pieces b /\ b_order a = b_order b /\ b_dim a = b_dim b /\
  match b_coeffs a, b_coeffs b with
  | Some x, Some y => same_coeffs x y
  | None, None => True
  | _, _ => False
  end.

Definition same_model (a b : field_model) : Prop :=
  same_base (m_base a) (m_base b) /\ m_nmax a = m_nmax b /\ m_source a = m_source b.

(** Both absent, or both present and equal in this sense. *)
Definition same_part {A} (same : A -> A -> Prop) (a b : option A) : Prop :=
  match a, b with Some x, Some y => same x y | None, None => True | _, _ => False end.

(** Baseline corrections: same breaks and the same coefficients per piece. *)
Definition same_delta (a b : delta) : Prop :=
  d_breaks a = d_breaks b /\ d_order a = d_order b /\
  forall r i, r < d_order a -> i < List.length (d_breaks a) - 1 -> d_coeffs a r i = d_coeffs b r i.
