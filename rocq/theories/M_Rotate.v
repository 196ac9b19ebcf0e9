(** Model of the Fourier representation of rotation matrices in
    chaosmagpy/coordinate_utils.py: [synth_rotate_gauss] (205-258), the
    spectral part of [rotate_gauss_fft] (353-462), [q_response_1D] with
    kind='quadratic' (1839-1891) and [q_response] (1899-1948).

    Simplifications: exact arithmetic; np.fft.fft, np.argsort are modelled by
    what they compute; prints and the written npz file are dropped.  Complex
    numbers are Coquelicot's. *)
From Coq Require Import Reals List Bool String Arith Permutation Sorted.
From Coquelicot Require Import Complex.
From Verif Require Import M_Prelude M_ND Spec_Field.
Import ListNotations.
Open Scope R_scope.

(** The [scaled] argument: missing, a Python bool, or the zero-dimensional
    NumPy array that np.load returns for a saved bool. *)
Inductive flag : Type := FlagNone | FlagBool (b : bool) | FlagArray (b : bool).

(** [scaled is False], after 236-237 ([None] becomes [False]): an identity
    test, which no NumPy array passes. *)
Definition is_False (f : flag) : bool :=
  match f with FlagNone => true | FlagBool b => negb b | FlagArray _ => false end.

(** The truth value [if scaled:] (lines 445 and 372-373). *)
Definition truthy (f : flag) : bool :=
  match f with FlagNone => false | FlagBool b => b | FlagArray b => b end.

(** np.sum of complex numbers *)
Definition Csum (l : list C) : C := fold_right Cplus (RtoC 0) l.

(** synth_rotate_gauss, 205-258.  [time[..., None, None, None]] has three
    trailing axes of length one; the reshaped copy of a one-dimensional
    [frequency] (line 242) is discarded, so [frequency] keeps its shape. *)
Definition synth_rotate_gauss (time frequency : nd R) (spectrum : nd C) (scaled : flag) : result (nd R) :=
  let tsh := (sh time ++ [1; 1; 1])%nat in
  let frequency := mknd (sh frequency) (fun i => 2 * PI * at_ frequency i) in
  bind (broadcast [sh frequency; tsh]) (fun fsh =>
  let freq_t (i : list nat) : R :=
    bread frequency i * at_ time (firstn (List.length (sh time)) (bidx tsh i)) in
  let harmonics (i : list nat) : C :=
    let h := (cos (freq_t i), sin (freq_t i)) in
    if is_False scaled then
      if Rlt_dec 0 (bread frequency i) then Cmult (RtoC 2) h else h
    else h in
  bind (broadcast [sh spectrum; fsh]) (fun psh =>
  let d := (List.length psh - 3)%nat in
  let product (i : list nat) : C := Cmult (bread spectrum i) (harmonics (bidx fsh i)) in
  Ok (mknd (firstn d psh ++ skipn (S d) psh)
        (fun i => fst (Csum (map (fun k => product (firstn d i ++ k :: skipn d i)) (seq 0 (nth d psh 0%nat)))))))).

(** np.fft.fft(x, axis=0) / N for one matrix element, line 395: [x n] is the
    element at the n-th time. *)
Definition fft_over_N (N : nat) (x : nat -> R) (k : nat) : C :=
  let w n := 2 * PI * INR k * INR n / INR N in
  (Rsum (map (fun n => x n * cos (w n)) (seq 0 N)) / INR N,
   - Rsum (map (fun n => x n * sin (w n)) (seq 0 N)) / INR N).

(** int(N/2+1), lines 365 and 396 *)
Definition half (N : nat) : nat := (N / 2 + 1)%nat.

(** frequency_full, line 399, oscillations per second *)
Definition frequency_full (N : nat) (step : R) (k : nat) : R := INR k / INR N / step / 3600.

(** np.argsort, and what is assumed of it: the indices in ascending order of
    the values, ties in any order. *)
Definition sorts_indices (argsort : list R -> list nat) : Prop :=
  forall l, Permutation (argsort l) (seq 0 (List.length l)) /\
            Sorted (fun i j => nth i l 0 <= nth j l 0) (argsort l).

(** The part of an element's spectrum that is kept, lines 431-443: the
    [filter] largest components with their frequencies per day. *)
Definition keep (argsort : list R -> list nat) (filter N : nat) (step : R) (element : nat -> C)
    : list (R * C) :=
  let sort := firstn filter (rev (argsort (map (fun k => Cmod (element k)) (seq 0 (half N))))) in
  map (fun k => (frequency_full N step k * (24 * 3600), element k)) sort.

(** lines 445-449 *)
Definition scale_spectrum (scaled : flag) (l : list (R * C)) : list (R * C) :=
  if truthy scaled then
    map (fun fx => if Req_EM_T (fst fx) 0 then fx else (fst fx, Cmult (RtoC 2) (snd fx))) l
  else l.

(** frequency[:, k, ll] = ..., spectrum[:, k, ll] = ...: the array whose
    column (k, ll) is the given list *)
Definition column_array {A} (d : A) (filter rows cols : nat) (f : nat -> nat -> list A) : nd A :=
  mknd [filter; rows; cols] (fun i => match i with [j; k; ll] => nth j (f k ll) d | _ => d end).

(** rotate_gauss_fft, 394-462, from the matrices on: [x j k ll] is the element
    (k, ll) of the matrix at the j-th time, [q k] the response of every
    frequency for row [k] (402-409: [qfunc(frequency_full, k)]).  A [filter]
    larger than the number of components does not fit the output arrays.
    Returns frequency, spectrum, frequency_ind, spectrum_ind. *)
Definition spectra (argsort : list R -> list nat) (N : nat) (step : R) (filter : option nat)
    (scaled : flag) (rows cols : nat) (x : nat -> nat -> nat -> R) (q : nat -> nat -> C)
    : result (nd R * nd C * nd R * nd C) :=
  let filter := match filter with None => half N | Some f => f end in
  let element k ll := fft_over_N N (fun j => x j k ll) in
  let kept k ll := scale_spectrum scaled (keep argsort filter N step (element k ll)) in
  let kept_ind k ll :=
    scale_spectrum scaled (keep argsort filter N step (fun f => Cmult (q k f) (element k ll f))) in
  if (filter <=? half N)%nat then
    Ok (column_array 0 filter rows cols (fun k ll => map fst (kept k ll)),
        column_array (RtoC 0) filter rows cols (fun k ll => map snd (kept k ll)),
        column_array 0 filter rows cols (fun k ll => map fst (kept_ind k ll)),
        column_array (RtoC 0) filter rows cols (fun k ll => map snd (kept_ind k ll)))
  else Err ValueError.

(** The times of the samples, line 378 *)
Definition sample_time (step start_date : R) (j : nat) : R := INR j * step / 24 + start_date.

(** [n = np.floor(np.sqrt(k+1)-1)], line 408: row of the response used for
    coefficient k *)
Definition response_row (k : nat) : nat := (Nat.sqrt (k + 1) - 1)%nat.

(** ** Response of a layered conductor *)

(** np.sqrt of a complex number: the root with non-negative real part (and
    non-negative imaginary part on the cut, for +0 imaginary parts). *)
Definition Csqrt (z : C) : C :=
  let r := Cmod z in
  (sqrt ((r + fst z) / 2),
   (if Rlt_dec (snd z) 0 then -1 else 1) * sqrt ((r - fst z) / 2)).

(** Positive real base, complex exponent *)
Definition Rcpow (x : R) (z : C) : C :=
  let m := exp (fst z * ln x) in (m * cos (snd z * ln x), m * sin (snd z * ln x)).

(** 4*np.pi*1e-7, line 1844 *)
Definition mu : R := 4 * PI * / 10 ^ 7.

(** omega = 2*np.pi*1.0j/periods, line 1846 *)
Definition omega (period : R) : C := (0, 2 * PI / period).

(** qk, line 1856 etc. *)
Definition q_of (om : C) (r : R) : C := Copp (Cmult om (RtoC (mu * r))).
(** bk, line 1857 etc. *)
Definition b_of (om : C) (n : nat) (sigma r : R) : C :=
  Csqrt (Cminus (RtoC ((INR n + 1 / 2) ^ 2)) (Cmult (q_of om r) (RtoC (sigma * r)))).

(** Surface admittances from the core to the surface, lines 1855-1882, for
    layers (sigma, radius in metres) listed from the surface down. *)
Fixpoint admittance (om : C) (n : nat) (layers : list (R * R)) : C :=
  match layers with
  | [] => RtoC 0
  | [(s, r)] =>
      Copp (Cdiv (Cplus (b_of om n s r) (RtoC (1 / 2))) (q_of om r))
  | (s, r) :: ((_, r1) :: _) as below =>
      let qk := q_of om r in
      let bk := b_of om n s r in
      let bkp := Cplus bk (RtoC (1 / 2)) in
      let bkm := Cminus bk (RtoC (1 / 2)) in
      let zetak := Rcpow (r / r1) (Cmult (RtoC 2) bk) in
      let tauk := Cdiv (Cminus (RtoC 1) zetak) (Cplus (RtoC 1) zetak) in
      let qY := Cmult (q_of om r1) (admittance om n below) in
      Cdiv (Cmult (Cdiv (RtoC 1) qk)
             (Cplus (Cmult qY (Cminus bk (Cmult (RtoC (1 / 2)) tauk))) (Cmult (Cmult bkp bkm) tauk)))
           (Cplus bk (Cmult tauk (Cplus (RtoC (1 / 2)) qY)))
  end.

(** The C-response in km, line 1885 *)
Definition C_response (om : C) (n : nat) (layers : list (R * R)) : C :=
  Cdiv (Cdiv (RtoC 1) (Cmult (Cmult om (RtoC mu)) (admittance om n layers))) (RtoC 1000).

(** The Q-response, line 1891; radius0 in metres *)
Definition Q_of_C (n : nat) (radius0 : R) (c : C) : C :=
  Cdiv (Cmult (RtoC (INR n / INR (n + 1)))
              (Cminus (RtoC 1) (Cdiv (Cmult (RtoC (INR (n + 1))) c) (RtoC (radius0 / 1000)))))
       (Cplus (RtoC 1) (Cdiv (Cmult (RtoC (INR n)) c) (RtoC (radius0 / 1000)))).

(** q_response_1D(..., kind='quadratic')[3] for one period; [sigma] and
    [radius] (km) from the surface down, line 1839 converts to metres.
    (All operations on [periods] are elementwise.) *)
Definition Q_1D (period : R) (model : list (R * R)) (n : nat) : C :=
  let layers := map (fun sr => (fst sr, 1000 * snd sr)) model in
  Q_of_C n (snd (nth 0 layers (0, 0))) (C_response (omega period) n layers).

(** q_response, 1899-1948: [file] holds (depth in km, conductivity); the
    result at [n-1] is the row of degree [n].  Only positive frequencies are
    written into the zero-initialised array. *)
Definition q_response (file : list (R * R)) (frequency : list R) (nmax : nat) : list (list C) :=
  let model := map (fun ds => (snd ds, 6371.2 - fst ds)) file in
  map (fun n => map (fun f => if Rlt_dec 0 f then Q_1D (1 / f) model n else RtoC 0) frequency) (seq 1 nmax).
