(** Model of [power_spectrum], [degree_correlation] and [sensitivity],
    chaosmagpy/model_utils.py 968-1169, and [augment_breaks], 195-219.
    Exact arithmetic; prints dropped; radius a scalar. *)
From Coq Require Import Reals List Arith ZArith String Bool.
From Verif Require Import M_Prelude M_ND.
Import ListNotations.
Open Scope R_scope.

(** A Python slice l[a:b] with 0 <= a <= b. *)
Definition slice {A} (a b : nat) (l : list A) : list A := firstn (b - a) (skipn a l).
(** np.sum *)
Definition npsum (l : list R) : R := fold_left Rplus l 0.
Definition sq (x : R) : R := x * x.

(** int(np.sqrt(size + 1) - 1) *)
Definition degree_of_size (size : nat) : Z := (Z.sqrt (Z.of_nat size + 1) - 1)%Z.

(** x with entry at position [axis] replaced *)
Definition set_axis (x : list nat) (axis k : nat) : list nat := firstn axis x ++ k :: skipn (S axis) x.

(** The values of an array along an axis, through index x. *)
Definition along (c : nd R) (axis : nat) (x : list nat) : list R :=
  map (fun k => at_ c (set_axis x axis k)) (seq 0 (nth axis (sh c) 0%nat)).

(** model_utils.py 1041-1052 *)
Definition factor (source : string) : result (nat -> R -> R) :=
  if (source =? "internal")%string then Ok (fun n r => INR (n + 1) * r ^ (2 * n + 4))
  else if (source =? "external")%string then Ok (fun n r => INR n * / r ^ (2 * n - 2))
  else if (source =? "toroidal")%string then Ok (fun n _ => INR (n * (n + 1)) / INR (2 * n + 1))
  else Err ValueError.

(** A tuple index, counted from the end if negative. *)
Definition norm_axis (ndim : nat) (axis : Z) : result nat :=
  let d := Z.of_nat ndim in
  if ((- d <=? axis) && (axis <? d))%Z%bool then Ok (Z.to_nat (if (axis <? 0)%Z then axis + d else axis))
  else Err IndexError.

(** model_utils.py 968-1071; [a] is basicConfig['params.r_surf'].  The loop
    over n writes W_n[..., n-1, ...] for n = 1..nmax: every entry once. *)
Definition power_spectrum (a : R) (c : nd R) (radius : option R) (nmax : option Z)
    (source : option string) (axis : option Z) : result (nd R) :=
  let axis := match axis with None => (-1)%Z | Some z => z end in
  let r := match radius with None => 1 | Some rad => a / rad end in
  bind (norm_axis (List.length (sh c)) axis) (fun axis =>
  let N := degree_of_size (nth axis (sh c) 0%nat) in
  let nmax := match nmax with None => N | Some n => if (N <? n)%Z then N else n end in
  bind (factor (match source with None => "internal" | Some s => s end)%string) (fun f =>
  if (nmax <? 0)%Z then Err ValueError else                 (* np.empty, negative dimension *)
  Ok (mknd (set_axis (sh c) axis (Z.to_nat nmax)) (fun x =>
    let n := (nth axis x 0 + 1)%nat in
    let mn := (n ^ 2 - 1)%nat in
    let mx := (mn + (2 * n + 1))%nat in
    f n r * npsum (map sq (slice mn mx (along c axis x))))))).

(** Floating-point quotients and products of finite numbers. *)
Inductive ext := Fin (x : R) | NaN | PInf | NInf.
Definition ediv (x y : R) : ext :=
  if Req_EM_T y 0 then
    if Req_EM_T x 0 then NaN else if Rlt_dec 0 x then PInf else NInf
  else Fin (x / y).
(** finite times extended *)
Definition emul (x : R) (y : ext) : ext :=
  match y with
  | Fin y => Fin (x * y)
  | NaN => NaN
  | PInf => if Req_EM_T x 0 then NaN else if Rlt_dec 0 x then PInf else NInf
  | NInf => if Req_EM_T x 0 then NaN else if Rlt_dec 0 x then NInf else PInf
  end.

(** 1-D check and list of values *)
Definition vector_of (c : nd R) : result (list R) :=
  if (List.length (sh c) =? 1)%nat then Ok (elems c) else Err ValueError.

(** model_utils.py 1074-1117 *)
Definition degree_correlation (c1 c2 : nd R) : result (list ext) :=
  bind (vector_of c1) (fun l1 => bind (vector_of c2) (fun l2 =>
  if negb (List.length l1 =? List.length l2)%nat then Err ValueError else
  let nmax := Z.to_nat (degree_of_size (List.length l1)) in
  let l12 := map (fun p => fst p * snd p) (combine l1 l2) in
  Ok (map (fun n =>
    let mn := (n ^ 2 - 1)%nat in
    let mx := (mn + (2 * n + 1))%nat in
    let R_n := npsum (map sq (slice mn mx l1)) in
    let S_n := npsum (map sq (slice mn mx l2)) in
    ediv (npsum (slice mn mx l12)) (sqrt (R_n * S_n))) (seq 1 nmax)))).

(** S[mn:mx] *= s *)
Definition scale_slice (mn mx : nat) (s : ext) (l : list ext) : list ext :=
  firstn mn l ++ map (fun x => match x with Fin x => emul x s | _ => NaN end) (slice mn mx l) ++ skipn mx l.

(** model_utils.py 1120-1169.  The entries of S are finite until their own
    block is scaled, once. *)
Definition sensitivity (c1 c2 : nd R) : result (list ext) :=
  bind (vector_of c1) (fun l1 => bind (vector_of c2) (fun l2 =>
  if negb (List.length l1 =? List.length l2)%nat then Err ValueError else
  let nmax := Z.to_nat (degree_of_size (List.length l1)) in
  let S0 := map (fun p => Fin (fst p - snd p)) (combine l1 l2) in
  Ok (fold_left (fun S n =>
    let mn := (n ^ 2 - 1)%nat in
    let mx := (mn + (2 * n + 1))%nat in
    scale_slice mn mx (ediv 1 (sqrt (npsum (map sq (slice mn mx l2)) / INR (2 * n + 1)))) S)
    (seq 1 nmax) S0))).

(** model_utils.py 195-219 for one-dimensional breaks; list * int repetition. *)
Definition augment_breaks {A} (breaks : list A) (order : Z) : result (list A) :=
  match breaks with
  | [] => Err IndexError
  | b0 :: _ => Ok (repeat b0 (Z.to_nat (order - 1)) ++ breaks ++ repeat (last breaks b0) (Z.to_nat (order - 1)))
  end.
