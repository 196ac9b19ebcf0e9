(** Model of [synth_values] (chaosmagpy/model_utils.py 347-642) and
    [design_gauss] (645-894): input handling, and the kernel of the synthesis for one point.
    The functions on arrays are in M_SynthArr. *)
From Coq Require Import Reals List Arith ZArith String Bool.
From Verif Require Import M_Prelude Spec_Field M_Legendre.
Import ListNotations.
Open Scope R_scope.

(** coeffs[..., i]: reading behind the last coefficient raises IndexError. *)
Definition getc (c : list R) (i : nat) : result R :=
  match nth_error c i with Some v => Ok v | None => Err IndexError end.

(** for i in range(a, b) with a body that can raise *)
Definition for_rangeM {A} (a b : nat) (f : A -> nat -> result A) (x : A) : result A :=
  fold_left (fun r i => bind r (fun y => f y i)) (seq a (b - a)) (Ok x).

(** model_utils.py 564-569 and 816-821: source keyword. *)
Definition parse_source (s : option string) : result src :=
  match s with
  | None => Ok Internal
  | Some s => if (s =? "internal")%string then Ok Internal
              else if (s =? "external")%string then Ok External
              else Err ValueError
  end.

(** np.amin / np.amax over all elements; zero-size arrays raise ValueError. *)
Definition amin (l : list R) : result R :=
  match l with [] => Err ValueError | x :: r => Ok (fold_left Rmin r x) end.
Definition amax (l : list R) : result R :=
  match l with [] => Err ValueError | x :: r => Ok (fold_left Rmax r x) end.

(** model_utils.py 500-511 and 788-799: check of the colatitudes; the result
    is the flag [poles]. *)
Definition check_poles (thetas : list R) : result bool :=
  bind (amin thetas) (fun mn => bind (amax thetas) (fun mx =>
  if (if Rle_dec mn 0 then true else if Rle_dec 180 mx then true else false) then
    if (if Req_EM_T mn 0 then true else if Req_EM_T mx 180 then true else false)
    then Ok true else Err ValueError
  else Ok false)).

(** model_utils.py 578-579: where_poles, for one colatitude *)
Definition is_pole (theta : R) : bool :=
  if Req_EM_T theta 0 then true else if Req_EM_T theta 180 then true else false.

(** model_utils.py 518-534: nmax and mmax. [int(np.sqrt(x) - 1)] is taken as
    the exact integer square root minus one; [int(a/b + c)] as exact
    truncation. *)
Definition infer_nmax (dim nmin : Z) (nmax mmax : option Z) : Z * Z :=
  match nmax, mmax with
  | None, None => let n := (Z.sqrt (dim + nmin ^ 2) - 1)%Z in (n, n)
  | Some n, None => (n, n)
  | None, Some m =>
      if (nmin - 1 <=? m)%Z
      then (Z.quot (dim - m * (m + 2) + nmin ^ 2 - 1 + m * (2 * m + 1)) (2 * m + 1), m)
      else (Z.quot (dim + (nmin - 1) * (2 * m + 1)) (2 * m + 1), m)
  | Some n, Some m => (n, m)
  end.

(** Accumulators of the synthesis loop. *)
Record acc := mkacc { a_num : nat; a_rn : R; a_br : R; a_bt : R; a_bp : R }.

(** model_utils.py 624-629: Pnm/sinth with the limit at the poles. *)
Definition div_P (P : tab) (sinth : R) (pole : bool) (n m : nat) : R :=
  if pole then P m (n + 1)%nat * P 1%nat 0%nat else P n m / sinth.

(** model_utils.py 600-635: body of the loop over m. *)
Definition synth_m (s : src) (P : tab) (sinth : R) (pole : bool) (phi : R)
    (c : list R) (n : nat) (x : acc) (m : nat) : result acc :=
  let cmp := cos (INR m * phi) in
  let smp := sin (INR m * phi) in
  bind (getc c (a_num x)) (fun cg => bind (getc c (a_num x + 1)) (fun ch =>
  let br := match s with
            | Internal => a_br x + INR (n + 1) * P n m * a_rn x * (cg * cmp + ch * smp)
            | External => a_br x + - (INR n * P n m * a_rn x * (cg * cmp + ch * smp))
            end in
  let bt := a_bt x + - P m (n + 1)%nat * a_rn x * (cg * cmp + ch * smp) in
  let bp := a_bp x + INR m * div_P P sinth pole n m * a_rn x * (cg * smp - ch * cmp) in
  Ok (mkacc (a_num x + 2) (a_rn x) br bt bp))).

(** model_utils.py 590-640: body of the loop over n. *)
Definition synth_n (s : src) (r : R) (P : tab) (sinth : R) (pole : bool) (phi : R)
    (c : list R) (mmax : nat) (x : acc) (n : nat) : result acc :=
  bind (getc c (a_num x)) (fun c0 =>
  let br := match s with
            | Internal => a_br x + INR (n + 1) * P n 0%nat * a_rn x * c0
            | External => a_br x + - INR n * P n 0%nat * a_rn x * c0
            end in
  let bt := a_bt x + - P 0%nat (n + 1)%nat * a_rn x * c0 in
  bind (for_rangeM 1 (Nat.min n mmax + 1) (synth_m s P sinth pole phi c n)
          (mkacc (a_num x + 1) (a_rn x) br bt (a_bp x)))
  (fun y => Ok (mkacc (a_num y)
                  (match s with Internal => a_rn y / r | External => a_rn y * r end)
                  (a_br y) (a_bt y) (a_bp y)))).

(** model_utils.py 564-569: initial radial factor, r = radius / r_surf *)
Definition rn_init (s : src) (r : R) (nmin : nat) : R :=
  match s with Internal => / r ^ (nmin + 2) | External => r ^ (nmin - 1) end.

(** model_utils.py 571-642 for one point; [pole] tells whether the masked pole
    formula applies; phi in degrees is converted to radians (590). *)
Definition synth_point (oob : R) (s : src) (a : R) (nmin nmax mmax : nat) (poles : bool)
    (c : list R) (radius theta phi : R) : result (R * R * R) :=
  let r := radius / a in
  bind (legendre_poly oob nmax theta) (fun P =>
  let sinth := P 1%nat 1%nat in
  let pole := (poles && is_pole theta)%bool in
  bind (for_rangeM nmin (nmax + 1) (synth_n s r P sinth pole (radians phi) c mmax)
          (mkacc 0 (rn_init s r nmin) 0 0 0))
  (fun x => Ok (a_br x, a_bt x, a_bp x))).

(** ** design_gauss *)

(** model_utils.py 833-837 *)
Definition design_dim (nmin nmax mmax : Z) : Z :=
  if (nmin - 1 <=? mmax)%Z
  then (mmax * (mmax + 2) + (nmax - mmax) * (2 * mmax + 1) - nmin ^ 2 + 1)%Z
  else ((nmax - nmin + 1) * (2 * mmax + 1))%Z.
