(** Model of the classes [Base] and [BaseModel] (chaosmagpy/chaos.py 48-432):
    construction and evaluation.

    scipy.interpolate.PPoly is external code: [interval], [pp_eval],
    [pp_deriv], [pp_extend] describe its documented behaviour for breaks in
    ascending order (find_interval, evaluate, derivative, extend).  Arithmetic
    is exact; NaN is [None]; warnings are dropped. *)
From Coq Require Import Reals List Arith ZArith String Bool.
From Verif Require Import M_Prelude M_ND.
Import ListNotations.
Open Scope R_scope.

(** Array of shape (k, m, d). *)
Record c3 := mkc3 { c_k : nat; c_m : nat; c_d : nat; c_v : nat -> nat -> nat -> R }.

(** ** PPoly (SciPy) *)
Record ppoly := mkpp { p_x : list R; p_k : nat; p_c : nat -> nat -> nat -> R; p_ext : bool }.

(** The interval of v: the first i with v < x[i+1], the last interval for the
    last break; outside the end intervals, or none without extrapolation. *)
Fixpoint scan (x : list R) (v : R) (i : nat) : nat :=
  match x with
  | _ :: ((b :: _) as x') => if Rlt_dec v b then i else scan x' v (S i)
  | _ => i
  end.
Definition interval (p : ppoly) (v : R) : option nat :=
  let x := p_x p in
  let a := nth 0 x 0 in
  let b := nth (List.length x - 1) x 0 in
  if Rlt_dec v a then (if p_ext p then Some 0%nat else None)
  else if Rlt_dec b v then (if p_ext p then Some (List.length x - 2)%nat else None)
  else if Req_EM_T v b then Some (List.length x - 2)%nat
  else Some (scan x v 0).

(** k (k-1) ... (k-nu+1) *)
Fixpoint falling (k nu : nat) : nat := match nu with O => 1%nat | S nu' => (k * falling (k - 1) nu')%nat end.

(** nu-th derivative at s of the polynomial with [row (K-1-k)] as coefficient of s^k. *)
Definition poly_eval (K : nat) (row : nat -> R) (nu : nat) (s : R) : R :=
  fold_left Rplus (map (fun k => row (K - 1 - k)%nat * INR (falling k nu) * s ^ (k - nu)) (seq nu (K - nu))) 0.

(** PP(v, nu=nu)[..., d] *)
Definition pp_eval (p : ppoly) (nu : nat) (v : R) (d : nat) : option R :=
  match interval p v with
  | None => None
  | Some i => Some (poly_eval (p_k p) (fun r => p_c p r i d) nu (v - nth i (p_x p) 0))
  end.

(** PP.derivative(nu): rows c[:-nu] times poch(arange(K-nu, 0, -1), nu), or one
    row of zeros if none is left. *)
Fixpoint poch (z n : nat) : nat := match n with O => 1%nat | S n' => (z * poch (z + 1) n')%nat end.
Definition pp_deriv (p : ppoly) (nu : nat) : ppoly :=
  if (p_k p <=? nu)%nat
  then if (nu =? 0)%nat then p else mkpp (p_x p) 1 (fun _ _ _ => 0) (p_ext p)
  else mkpp (p_x p) (p_k p - nu) (fun r i d => p_c p r i d * INR (poch (p_k p - nu - r) nu)) (p_ext p).

(** PP.extend(bin, [x]) for bin with as many rows as PP.c. *)
Definition pp_extend (p : ppoly) (bin : nat -> nat -> R) (x : R) : result ppoly :=
  let m := (List.length (p_x p) - 1)%nat in
  if Rle_dec (nth m (p_x p) 0) x then
    Ok (mkpp (p_x p ++ [x]) (p_k p) (fun r i d => if (i <? m)%nat then p_c p r i d else bin r d) (p_ext p))
  else if Rle_dec x (nth 0 (p_x p) 0) then
    Ok (mkpp (x :: p_x p) (p_k p) (fun r i d => if (i =? 0)%nat then bin r d else p_c p r (i - 1)%nat d) (p_ext p))
  else Err ValueError.

(** ** Base *)
Record base := mkbase { b_breaks : option (list R); b_pieces : option Z; b_order : option Z;
                        b_coeffs : option c3; b_dim : option nat }.

(** coeffs[-order:] along the first axis *)
Definition take_last (c : c3) (order : Z) : c3 :=
  let drop := if (order =? 0)%Z then 0%Z
              else if (0 <? order)%Z then Z.max 0 (Z.of_nat (c_k c) - order)   (* negative start *)
              else Z.min (Z.of_nat (c_k c)) (- order) in                        (* positive start *)
  let n := Z.to_nat drop in
  mkc3 (c_k c - n) (c_m c) (c_d c) (fun r i d => c_v c (r + n)%nat i d).

(** chaos.py 54-84 *)
Definition base_init (breaks : option (list R)) (order : option Z) (coeffs : option c3) : base :=
  let breaks := match breaks with Some [b] => Some [b; b] | _ => breaks end in
  let pieces := option_map (fun x : list R => (Z.of_nat (List.length x) - 1)%Z) breaks in
  match coeffs with
  | None => mkbase breaks pieces order None None
  | Some c =>
      let order := match order with None => Z.of_nat (c_k c) | Some o => Z.min o (Z.of_nat (c_k c)) end in
      mkbase breaks pieces (Some order) (Some (take_last c order)) (Some (c_d c))
  end.

(** The extrapolate argument. *)
Inductive extrap := XNone | XBool (b : bool) | XStr (s : string) | XInt (z : Z).

(** chaos.py 155-178 *)
Definition extrap_key (order : Z) (e : extrap) : result Z :=
  match e with
  | XBool b => Ok (if b then 2 else 0)%Z
  | XStr s =>
      if (s =? "linear")%string then Ok 2%Z
      else if (s =? "quadratic")%string then Ok 3%Z
      else if (s =? "cubic")%string then Ok 4%Z
      else if (s =? "constant")%string then Ok 1%Z
      else if (s =? "spline")%string then Ok order
      else if (s =? "off")%string then Ok 0%Z
      else Err ValueError
  | XInt z => Ok z
  | XNone => Ok 2%Z
  end.

(** chaos.py 199-204: the row bin[-1-k] = PP(x, nu=k) for k < key; [nan] stands
    for a NaN, which does not occur as PP extrapolates. *)
Definition make_bin (p : ppoly) (order key : nat) (x : R) : nat -> nat -> R := fun r d =>
  let k := (order - 1 - r)%nat in
  if ((r <? order) && (k <? key))%nat%bool then
    match pp_eval p k x d with Some v => v | None => 0 end
  else 0.

(** Result of synth_coeffs: shape s_sh + (s_dim,) *)
Record cres := mkcres { s_sh : list nat; s_dim : nat; s_at : list nat -> nat -> option R }.

Definition amin (l : list R) : result R := match l with [] => Err ValueError | x :: l' => Ok (fold_left Rmin l' x) end.
Definition amax (l : list R) : result R := match l with [] => Err ValueError | x :: l' => Ok (fold_left Rmax l' x) end.

(** chaos.py 86-213; [deriv] and [dim] not negative. *)
Definition synth_coeffs (b : base) (time : nd R) (dim deriv : option nat) (extrapolate : extrap) : result cres :=
  match b_coeffs b, b_breaks b, b_dim b, b_order b with
  | Some c, Some breaks, Some bdim, Some border =>
    if ((c_k c =? 0) || (c_m c =? 0) || (c_d c =? 0))%nat%bool then Err ValueError else   (* size 0 *)
    let dim := match dim with None => bdim | Some n => if (bdim <? n)%nat then bdim else n end in
    let deriv := match deriv with None => 0%nat | Some n => n end in
    let extrapolate := match extrapolate with XNone => XStr "linear" | e => e end in
    let PP := mkpp breaks (c_k c) (c_v c) true in
    match breaks with
    | [] => Err IndexError
    | start :: _ =>
      let end_ := nth (List.length breaks - 1) breaks 0 in
      bind (amin (elems time)) (fun mn => bind (amax (elems time)) (fun mx =>
      bind (if (if Rlt_dec mn start then true else if Rlt_dec end_ mx then true else false) then
              bind (extrap_key border extrapolate) (fun key =>
              let key := Z.min key border in
              if (0 <? key)%Z then
                bind (pp_extend PP (make_bin PP (Z.to_nat border) (Z.to_nat key) start) start) (fun PP =>
                pp_extend PP (make_bin PP (Z.to_nat border) (Z.to_nat key) end_) end_)
              else Ok (mkpp (p_x PP) (p_k PP) (p_c PP) false))
            else Ok PP) (fun PP =>
      let PP := pp_deriv PP deriv in
      Ok (mkcres (sh time) dim (fun i d =>
            option_map (fun v => v * 365.25 ^ deriv) (pp_eval PP 0 (at_ time i) d))))))
    end
  | None, _, _, _ => Err ValueError
  | _, _, _, _ => Err AttributeError      (* breaks None: None.astype *)
  end.
