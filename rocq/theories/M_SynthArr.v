(** Model of [synth_values] (chaosmagpy/model_utils.py 347-642) and
    [design_gauss] (645-894) on arrays.

    Simplifications: arithmetic is exact; broadcasting of the element-wise
    expressions is expressed by reading every operand at its broadcast index
    of the result; warnings and prints are dropped; [nmin], [nmax], [mmax]
    are integers.  Division by zero follows Coq's convention, so statements
    about values are only made for positive radii. *)
From Coq Require Import Reals List Arith ZArith String Bool.
From Verif Require Import M_Prelude M_ND Spec_Field M_Legendre M_Synth.
Import ListNotations.
Open Scope R_scope.

(** Coefficient array of shape csh + (cdim,). *)
Record carr := mkcarr { csh : list nat; cdim : nat; cat : list nat -> nat -> R }.

(** a coefficient vector *)
Definition cvec (l : list R) : carr := mkcarr [] (List.length l) (fun _ k => nth k l 0).

(** The coefficient vector used at index x of the broadcast result. *)
Definition crow (c : carr) (x : list nat) : list R := map (cat c (bidx (csh c) x)) (seq 0 (cdim c)).

(** coeffs[..., i] *)
Definition getcA (c : carr) (i : nat) : result (list nat -> R) :=
  if (i <? cdim c)%nat then Ok (fun x => cat c (bidx (csh c) x) i) else Err IndexError.

Record aacc := mkaacc { A_num : nat; A_rn : list nat -> R;
                        A_br : list nat -> R; A_bt : list nat -> R; A_bp : list nat -> R }.

(** model_utils.py 624-629: [div_Pnm]; with the flag [poles] the masked
    assignments distinguish pole and non-pole elements. *)
Definition div_PA (P : list nat -> tab) (sinth : list nat -> R) (poles : bool) (theta : nd R)
    (n m : nat) (x : list nat) : R :=
  if poles then
    if is_pole (bread theta x) then P x m (n + 1)%nat * P x 1%nat 0%nat else P x n m / sinth x
  else P x n m / sinth x.

(** model_utils.py 600-635 *)
Definition synth_mA (s : src) (P : list nat -> tab) (sinth : list nat -> R) (poles : bool)
    (theta : nd R) (phi : nd R) (c : carr) (n : nat) (y : aacc) (m : nat) : result aacc :=
  let cmp x := cos (INR m * radians (bread phi x)) in
  let smp x := sin (INR m * radians (bread phi x)) in
  bind (getcA c (A_num y)) (fun cg => bind (getcA c (A_num y + 1)) (fun ch =>
  let br x := match s with
              | Internal => A_br y x + INR (n + 1) * P x n m * A_rn y x * (cg x * cmp x + ch x * smp x)
              | External => A_br y x + - (INR n * P x n m * A_rn y x * (cg x * cmp x + ch x * smp x))
              end in
  let bt x := A_bt y x + - P x m (n + 1)%nat * A_rn y x * (cg x * cmp x + ch x * smp x) in
  let bp x := A_bp y x + INR m * div_PA P sinth poles theta n m x * A_rn y x * (cg x * smp x - ch x * cmp x) in
  Ok (mkaacc (A_num y + 2) (A_rn y) br bt bp))).

(** model_utils.py 590-640 *)
Definition synth_nA (s : src) (r : nd R) (P : list nat -> tab) (sinth : list nat -> R) (poles : bool)
    (theta : nd R) (phi : nd R) (c : carr) (mmax : nat) (y : aacc) (n : nat) : result aacc :=
  bind (getcA c (A_num y)) (fun c0 =>
  let br x := match s with
              | Internal => A_br y x + INR (n + 1) * P x n 0%nat * A_rn y x * c0 x
              | External => A_br y x + - INR n * P x n 0%nat * A_rn y x * c0 x
              end in
  let bt x := A_bt y x + - P x 0%nat (n + 1)%nat * A_rn y x * c0 x in
  bind (for_rangeM 1 (Nat.min n mmax + 1) (synth_mA s P sinth poles theta phi c n)
          (mkaacc (A_num y + 1) (A_rn y) br bt (A_bp y)))
  (fun z => Ok (mkaacc (A_num z)
                  (fun x => match s with Internal => A_rn z x / bread r x | External => A_rn z x * bread r x end)
                  (A_br z) (A_bt z) (A_bp z)))).

(** legendre_poly(nmax, theta) for an array theta: element-wise. For
    0 < nmax it cannot fail (932); [tab0] is never read. *)
Definition legendreA (oob : R) (nmax : nat) (theta : nd R) : result (list nat -> tab) :=
  bind (legendre_poly oob nmax 0) (fun _ =>
  Ok (fun x => match legendre_poly oob nmax (bread theta x) with Ok P => P | Err _ => fun _ _ => 0 end)).

Definition orZ (o : option Z) (d : Z) : Z := match o with Some z => z | None => d end.

(** A field on an array of points. *)
Record field := mkfield { f_sh : list nat; f_r : list nat -> R; f_t : list nat -> R; f_p : list nat -> R }.

(** model_utils.py 347-642; [a] is basicConfig['params.r_surf']. *)
Definition synth_values (oob a : R) (c : carr) (radius theta phi : nd R)
    (nmin nmax mmax : option Z) (source : option string) (grid : bool) : result field :=
  let r := mknd (sh radius) (fun x => at_ radius x / a) in
  bind (check_poles (elems theta)) (fun poles =>
  let nmin := orZ nmin 1 in
  if (nmin <=? 0)%Z then Err AssertionError else
  let '(nmax, mmax) := infer_nmax (Z.of_nat (cdim c)) nmin nmax mmax in
  if (nmax <? nmin)%Z then Err ValueError else
  bind (if grid then bind (expand_before_last phi) (fun p => Ok (expand_last theta, p))
        else Ok (theta, phi)) (fun tp => let '(theta, phi) := tp in
  bind (broadcast [sh r; sh theta; sh phi; csh c]) (fun gsh =>
  bind (parse_source source) (fun s =>
  let nmin := Z.to_nat nmin in let nmax := Z.to_nat nmax in let mmax := Z.to_nat mmax in
  bind (legendreA oob nmax theta) (fun P =>
  let sinth x := P x 1%nat 1%nat in
  bind (for_rangeM nmin (nmax + 1) (synth_nA s r P sinth poles theta phi c mmax)
          (mkaacc 0 (fun x => rn_init s (bread r x) nmin) (fun _ => 0) (fun _ => 0) (fun _ => 0)))
  (fun y => Ok (mkfield gsh (A_br y) (A_bt y) (A_bp y)))))))).

(** ** design_gauss *)

(** A[..., i] = v, A of shape gsh + (dim,) *)
Definition setA (dim : nat) (A : list nat -> nat -> R) (i : nat) (v : list nat -> R)
  : result (list nat -> nat -> R) :=
  if (i <? dim)%nat then Ok (fun x k => if (k =? i)%nat then v x else A x k) else Err IndexError.

Record dacc := mkdacc { d_num : nat; d_rn : list nat -> R;
                        d_r : list nat -> nat -> R; d_t : list nat -> nat -> R; d_p : list nat -> nat -> R }.

(** model_utils.py 856-886 *)
Definition design_mA (dim : nat) (s : src) (P : list nat -> tab) (sinth : list nat -> R) (poles : bool)
    (theta phi : nd R) (n : nat) (y : dacc) (m : nat) : result dacc :=
  let cmp x := cos (INR m * radians (bread phi x)) in
  let smp x := sin (INR m * radians (bread phi x)) in
  let k := match s with Internal => INR (n + 1) | External => - INR n end in
  bind (setA dim (d_r y) (d_num y) (fun x => k * P x n m * d_rn y x * cmp x)) (fun Ar =>
  bind (setA dim Ar (d_num y + 1) (fun x => k * P x n m * d_rn y x * smp x)) (fun Ar =>
  bind (setA dim (d_t y) (d_num y) (fun x => - P x m (n + 1)%nat * d_rn y x * cmp x)) (fun At =>
  bind (setA dim At (d_num y + 1) (fun x => - P x m (n + 1)%nat * d_rn y x * smp x)) (fun At =>
  bind (setA dim (d_p y) (d_num y) (fun x => INR m * div_PA P sinth poles theta n m x * d_rn y x * smp x)) (fun Ap =>
  bind (setA dim Ap (d_num y + 1) (fun x => - INR m * div_PA P sinth poles theta n m x * d_rn y x * cmp x)) (fun Ap =>
  Ok (mkdacc (d_num y + 2) (d_rn y) Ar At Ap))))))).

(** model_utils.py 845-892 *)
Definition design_nA (dim : nat) (s : src) (r : nd R) (P : list nat -> tab) (sinth : list nat -> R) (poles : bool)
    (theta phi : nd R) (mmax : nat) (y : dacc) (n : nat) : result dacc :=
  let k := match s with Internal => INR (n + 1) | External => - INR n end in
  bind (setA dim (d_r y) (d_num y) (fun x => k * P x n 0%nat * d_rn y x)) (fun Ar =>
  bind (setA dim (d_t y) (d_num y) (fun x => - P x 0%nat (n + 1)%nat * d_rn y x)) (fun At =>
  bind (for_rangeM 1 (Nat.min n mmax + 1) (design_mA dim s P sinth poles theta phi n)
          (mkdacc (d_num y + 1) (d_rn y) Ar At (d_p y)))
  (fun z => Ok (mkdacc (d_num z)
                  (fun x => match s with Internal => d_rn z x / bread r x | External => d_rn z x * bread r x end)
                  (d_r z) (d_t z) (d_p z))))).

(** The three design matrices: shape g_sh + (g_dim,). *)
Record gmat := mkgmat { g_sh : list nat; g_dim : nat;
                        g_r : list nat -> nat -> R; g_t : list nat -> nat -> R; g_p : list nat -> nat -> R }.

(** model_utils.py 645-894 *)
Definition design_gauss (oob a : R) (radius theta phi : nd R)
    (nmax : Z) (nmin mmax : option Z) (source : option string) : result gmat :=
  let r := mknd (sh radius) (fun x => at_ radius x / a) in
  bind (broadcast [sh r; sh theta; sh phi]) (fun gsh =>
  bind (check_poles (elems theta)) (fun poles =>
  if (nmax <=? 0)%Z then Err AssertionError else
  let nmin := orZ nmin 1 in
  if (nmax <? nmin)%Z then Err AssertionError else
  if (nmin <=? 0)%Z then Err AssertionError else
  let mmax := orZ mmax nmax in
  if (nmax <? mmax)%Z then Err AssertionError else
  if (mmax <? 0)%Z then Err AssertionError else
  bind (parse_source source) (fun s =>
  let dim := Z.to_nat (design_dim nmin nmax mmax) in
  let nmin := Z.to_nat nmin in let nmax := Z.to_nat nmax in let mmax := Z.to_nat mmax in
  bind (legendreA oob nmax theta) (fun P =>
  let sinth x := P x 1%nat 1%nat in
  bind (for_rangeM nmin (nmax + 1) (design_nA dim s r P sinth poles theta phi mmax)
          (mkdacc 0 (fun x => rn_init s (bread r x) nmin) (fun _ _ => 0) (fun _ _ => 0) (fun _ _ => 0)))
  (fun y => Ok (mkgmat gsh dim (d_r y) (d_t y) (d_p y))))))).
