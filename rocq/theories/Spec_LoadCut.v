(** Files of which only a beginning was written. *)
From Coq Require Import QArith List Arith Ascii.
From Verif Require Import M_Text.
Import ListNotations.

(** [cut] is the beginning of [content] and not all of it *)
Definition cut_off (cut content : text) : Prop := exists rest, rest <> [] /\ content = (cut ++ rest)%list.
(** two lists of numbers that can only differ in their last number *)
Definition same_but_last (l l' : list Q) : Prop := List.length l' = List.length l /\ removelast l' = removelast l.
(** [l'] is the beginning of [l], its last number perhaps another one *)
Definition beginning (l' l : list Q) : Prop := exists k, (k <= List.length l)%nat /\ same_but_last (firstn k l) l'.

From Coq Require Import Reals ZArith.
From Verif Require Import M_Prelude M_ND M_PP M_Model Spec_Loaders.
(** a model of the degree [nmax] all of whose coefficients are zero *)
Definition zero_model (M : field_model) (nmax : nat) : Prop :=
  m_nmax M = Some (Z.of_nat nmax) /\ exists c, b_coeffs (m_base M) = Some c /\ c_d c = (nmax * (nmax + 2))%nat /\ forall j i d, c_v c j i d = 0%R.
(** a model without any coefficient *)
Definition no_coefficients (M : field_model) : Prop := b_dim (m_base M) = Some 0%nat.
(** the first rows of [table], at least one; the last value of the last one perhaps another one *)
Definition first_rows (table' table : list (list Q)) : Prop :=
  exists rows row row' more, table = (rows ++ row :: more)%list /\ table' = (rows ++ [row'])%list /\ same_but_last row row'.
(** what may come out of the beginning of a file with the knots [years] and the
    coefficients [data]: the model of the whole file, save that the last number of
    [data] may be another one, or a model without field *)
Definition outcome (M : field_model) (nmax order : nat) (years data : list Q) : Prop :=
  (exists data', same_but_last data data' /\ is_spline_model M nmax order years data') \/
  (exists years', beginning years' years /\ (List.length years' = order \/ List.length years' + 1 = order)%nat /\ zero_model M nmax).
