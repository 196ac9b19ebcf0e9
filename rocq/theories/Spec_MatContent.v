(** What a MAT-file written from a model contains, independently of the code:
    matrices by their size and entries, and MATLAB's ppval. *)
From Coq Require Import Reals List Arith ZArith String.
From Verif Require Import M_Prelude M_PP M_Model M_Chaos M_Matfile.
Import ListNotations.
Open Scope R_scope.

(** [a] is the m-by-n matrix with the entries g i j (indices from 0). *)
Definition matrix (a : arr) (m n : nat) (g : nat -> nat -> R) : Prop :=
  a_sh a = [m; n] /\ List.length (a_v a) = (m * n)%nat /\
  forall i j, (i < m)%nat -> (j < n)%nat -> nth (i * n + j) (a_v a) 0 = g i j.

(** Entry of a matrix with n columns. *)
Definition entry (n : nat) (a : arr) (i j : nat) : R := nth (i * n + j) (a_v a) 0.

(** MATLAB: ppval(pp, t) for t in piece i.  The rows i*dim, ..., i*dim+dim-1 of
    coefs belong to piece i, the columns to descending powers of the distance
    from the break before t. *)
Definition ppval (pp : ppdict) (i d : nat) (t : R) : R :=
  fold_right Rplus 0 (map (fun r => entry (pp_order pp) (pp_coefs pp) (i * pp_dim pp + d) r *
                                    (t - entry (pp_pieces pp + 1) (pp_breaks pp) 0 i) ^ (pp_order pp - 1 - r)) (seq 0 (pp_order pp))).

(** Baseline corrections: number of intervals, and the mean over all
    intervals and orders. *)
Definition intervals (d : delta) : nat := (List.length (d_breaks d) - 1)%nat.
Definition average (d : delta) : R :=
  fold_right Rplus 0 (map (fun r => fold_right Rplus 0 (map (fun i => d_coeffs d r i) (seq 0 (intervals d)))) (seq 0 (d_order d)))
  / INR (d_order d * intervals d).

(** The matrices of a cell array, whether NumPy kept them apart or not. *)
Definition contents (c : cells) : list arr := match c with Cells l | Stacked l => l end.
Definition stacked (c : cells) : Prop := exists l, c = Stacked l.

(** Breaks are written as one break if the first and the last are equal. *)
Definition reduced (x : list R) : list R := if Req_EM_T (nth 0 x 0) (nth (List.length x - 1) x 0) then [nth 0 x 0] else x.

(** [pp] is MATLAB's pp-form of the piecewise polynomial with breaks x, order
    K, D components and coefficients v (highest power first). *)
Definition pp_form (pp : ppdict) (x : list R) (K D : nat) (v : nat -> nat -> nat -> R) : Prop :=
  pp_order pp = K /\ pp_pieces pp = (List.length x - 1)%nat /\ pp_dim pp = D /\
  matrix (pp_breaks pp) 1 (List.length x) (fun _ j => nth j x 0) /\
  matrix (pp_coefs pp) ((List.length x - 1) * D) K (fun p r => v r (p / D) (p mod D))%nat.

(** An object made from breaks and coefficients that fit together. *)
Definition made_from (b : base) (x : list R) (K D : nat) (v : nat -> nat -> nat -> R) : Prop :=
  b = base_init (Some x) None (Some (mkc3 K (List.length x - 1) D v)) /\ (2 <= List.length x)%nat /\ (1 <= K)%nat.

(** Why the external part cannot be saved, and the exception. *)
Inductive ext_problem (sm gsm : option (list R)) (q11 s11 : delta) : exn -> Prop :=
  | ep_lengths : (d_order q11 * intervals q11 <> d_order s11 * intervals s11)%nat -> ext_problem sm gsm q11 s11 ValueError
  | ep_no_sm : (d_order q11 * intervals q11 = d_order s11 * intervals s11)%nat -> sm = None -> ext_problem sm gsm q11 s11 TypeError
  | ep_short_sm l : (d_order q11 * intervals q11 = d_order s11 * intervals s11)%nat -> sm = Some l -> (List.length l < 3)%nat ->
      ext_problem sm gsm q11 s11 ValueError
  | ep_no_gsm l : (d_order q11 * intervals q11 = d_order s11 * intervals s11)%nat -> sm = Some l -> (3 <= List.length l)%nat -> gsm = None ->
      ext_problem sm gsm q11 s11 TypeError
  | ep_short_gsm l g : (d_order q11 * intervals q11 = d_order s11 * intervals s11)%nat -> sm = Some l -> (3 <= List.length l)%nat -> gsm = Some g ->
      (List.length g < 4)%nat -> ext_problem sm gsm q11 s11 IndexError.

(** Angles that can be saved: one row of coefficients at least, three angles. *)
Definition saveable_angles (es : list (string * euler)) (s : string) : Prop :=
  exists e k, lookup s es = Some e /\ b_coeffs (eu_base e) = Some k /\ (3 <= c_d k)%nat.

(** Why the Euler angles cannot be saved: no meta data, or a satellite of the
    meta data (the first one counts) without angles in the model or with fewer
    than three of them. *)
Inductive euler_problem (es : list (string * euler)) (meta : smeta) : exn -> Prop :=
  | eu_no_meta : meta = SNone -> euler_problem es meta TypeError
  | eu_unknown pre l1 s l2 : meta = SMeta pre (l1 ++ s :: l2) -> (forall t, In t l1 -> saveable_angles es t) -> lookup s es = None ->
      euler_problem es meta KeyError
  | eu_few pre l1 s l2 e k : meta = SMeta pre (l1 ++ s :: l2) -> (forall t, In t l1 -> saveable_angles es t) -> lookup s es = Some e ->
      b_coeffs (eu_base e) = Some k -> (c_d k < 3)%nat -> euler_problem es meta IndexError.

(** Every entry has breaks and at least one row of coefficients. *)
Definition angles_made (es : list (string * euler)) : Prop :=
  forall s e, lookup s es = Some e -> exists x k, b_breaks (eu_base e) = Some x /\ x <> [] /\ b_coeffs (eu_base e) = Some k /\ (1 <= c_k k)%nat.

(** The internal parts and the calibration are made from breaks and
    coefficients that fit together. *)
Definition well_made (c : chaos) : Prop :=
  (forall m, ch_tdep c = Some m -> exists x K D v, made_from (m_base m) x K D v) /\
  (forall cs s b, ch_cal c = Some cs -> In (s, b) cs -> exists x K D v, made_from b x K D v) /\
  (forall m, ch_static c = Some m -> b_coeffs (m_base m) <> None) /\
  (forall es, ch_euler c = Some es -> angles_made es).

(** The model with its first parts only, in the order of saving. *)
Definition only_tdep (c : chaos) : chaos := mkchaos (ch_tdep c) None None None None None None.
Definition tdep_and_ext (c : chaos) : chaos := mkchaos (ch_tdep c) None (ch_sm c) (ch_gsm c) (ch_delta c) None None.

(** Nothing of the above. *)
Definition no_ext_problem (c : chaos) : Prop := forall q10 q11 s11 e, ch_delta c = Some (q10, q11, s11) -> ~ ext_problem (ch_sm c) (ch_gsm c) q11 s11 e.
Definition no_euler_problem (c : chaos) (meta : smeta) : Prop := forall q es e, ch_euler c = Some (q :: es) -> ~ euler_problem (q :: es) meta e.
