(** Model of [q_response_1D] with kind='constant'
    (chaosmagpy/coordinate_utils.py 1715-1837): layers of constant
    conductivity above a perfectly conducting core.

    Simplifications: exact arithmetic; the progress prints are dropped; n >= 1;
    [sigma] and [radius] come as one list of pairs (conductivity in S/m, top
    radius in km), surface first, so that a missing conductivity (IndexError)
    does not occur.  The while loop is run with a bound on its number of
    rounds, [None] meaning that the bound was reached. *)
From Coq Require Import Reals List Bool Arith ZArith.
From Coquelicot Require Import Complex.
From Verif Require Import M_Prelude M_ND M_Rotate.
Import ListNotations.
Open Scope R_scope.

(** np.exp of a complex number *)
Definition cexp (z : C) : C := (exp (fst z) * cos (snd z), exp (fst z) * sin (snd z)).
(** z**n *)
Fixpoint cpow (z : C) (n : nat) : C := match n with O => RtoC 1 | S n => Cmult z (cpow z n) end.
(** (-1)**n *)
Definition sgn (n : nat) : R := (-1) ^ n.

(** 1730-1731 *)
Definition eps : R := / 10 ^ 10.
Definition zlimit : R := 3.

(** 1746 *)
Definition k_of (period sigma : R) : C := Csqrt (0, 8 * / 10 ^ 7 * PI ^ 2 * sigma / period).

(** p, q, pd, qd of one argument *)
Record bessel := mkbessel { b_p : C; b_q : C; b_pd : C; b_qd : C }.

(** 1762-1772: state j, dp, dq, p, q, pd, qd *)
Fixpoint small_loop (fuel n : nat) (eps : R) (zz : C) (j : nat) (dp dq : C) (s : bessel) : option bessel :=
  if (if Rlt_dec eps (Cmod dp) then true else if Rlt_dec eps (Cmod dq) then true else false) then
    match fuel with
    | O => None
    | S fuel =>
        let dp := Cdiv (Cdiv (Cmult dp zz) (RtoC (INR j))) (RtoC (INR (2 * j + 1 + 2 * n))) in
        let dq := Cdiv (Cdiv (Cmult dq zz) (RtoC (INR j))) (RtoC (2 * INR j - 1 - 2 * INR n)) in
        small_loop fuel n eps zz (j + 1) dp dq
          (mkbessel (Cplus (b_p s) dp) (Cplus (b_q s) dq)
                    (Cplus (b_pd s) (Cmult dp (RtoC (INR (2 * j + n)))))
                    (Cplus (b_qd s) (Cmult dq (RtoC (2 * INR j - INR n - 1)))))
    end
  else Some s.

(** 1733-1734 *)
Definition fac1 (n : nat) : R := INR (fact n).
Definition fac2 (n : nat) : R := sgn n * fac1 n / INR (2 * n + 1).

(** 1754-1779: power series *)
Definition small (fuel n : nat) (eps : R) (z : C) : option bessel :=
  let zz := Cdiv (cpow z 2) (RtoC 2) in
  match small_loop fuel n eps zz 1 (RtoC 1) (RtoC 1) (mkbessel (RtoC 1) (RtoC 1) (RtoC (INR n)) (RtoC (- (INR n + 1)))) with
  | None => None
  | Some s =>
      let p := Cdiv (Cmult (b_p s) (cpow z n)) (RtoC (fac1 n)) in
      let q := Cmult (Cmult (b_q s) (Cinv (cpow z (n + 1)))) (RtoC (fac2 n)) in
      let q := Cmult (RtoC (sgn (n + 1) * PI / 2)) (Cminus p q) in
      let pd := Cdiv (Cmult (b_pd s) (cpow z (n - 1))) (RtoC (fac1 n)) in
      let qd := Cmult (Cmult (b_qd s) (Cinv (cpow z (n + 2)))) (RtoC (fac2 n)) in
      let qd := Cmult (RtoC (sgn (n + 1) * PI / 2)) (Cminus pd qd) in
      Some (mkbessel p q pd qd)
  end.

(** 1792-1805: state rm, rp, rmd, rpd, d, sg *)
Record bigsums := mkbig { g_rm : C; g_rp : C; g_rmd : C; g_rpd : C; g_d : C; g_sg : C }.
Definition big_step (n : nat) (zz : C) (s : bigsums) (j : nat) : bigsums :=
  let d := Cdiv (Cdiv (Cmult (Cmult (g_d s) (RtoC (INR n + 1 - INR j))) (RtoC (INR (n + j)))) (RtoC (INR j))) zz in
  let sg := Copp (g_sg s) in
  mkbig (Cplus (g_rm s) (Cmult sg d)) (Cplus (g_rp s) d)
        (Cplus (g_rmd s) (Cmult (Cmult sg d) (RtoC (INR (j + 1)))))
        (Cplus (g_rpd s) (Cmult d (RtoC (INR (j + 1))))) d sg.
Definition big_sums (n : nat) (zz : C) : bigsums :=
  fold_left (big_step n zz) (seq 1 n) (mkbig (RtoC 1) (RtoC 1) (RtoC 1) (RtoC 1) (RtoC 1) (RtoC 1)).
(** 1788-1812: closed form, the exponential split off *)
Definition big (n : nat) (z : C) : bessel :=
  let zz := Cmult (RtoC 2) z in
  let s := big_sums n zz in
  let e := cexp (Cmult (RtoC (-2)) z) in
  let q := Cmult (Cdiv (RtoC PI) zz) (g_rp s) in
  mkbessel
    (Cdiv (Cminus (g_rm s) (Cmult (Cmult (g_sg s) (g_rp s)) e)) zz)
    q
    (Cminus (Cdiv (Cplus (g_rm s) (Cmult (Cmult (g_sg s) (g_rp s)) e)) zz)
            (Cdiv (Cmult (RtoC 2) (Cminus (g_rmd s) (Cmult (Cmult (g_sg s) (g_rpd s)) e))) (cpow zz 2)))
    (Cminus (Copp q) (Cdiv (Cmult (RtoC (2 * PI)) (g_rpd s)) (cpow zz 2))).

(** v1, ..., v6 (1781-1786, 1814-1820); [e] is 1 in the first case *)
Record ratios := mkv { v1 : C; v2 : C; v3 : C; v4 : C; v5 : C; v6 : C }.
Definition ratios_of (s0 s1 : bessel) (e : C) : ratios :=
  mkv (Cmult (Cdiv (b_p s1) (b_p s0)) e) (Cdiv (b_pd s0) (b_p s0)) (Cmult (Cdiv (b_pd s1) (b_p s0)) e)
      (Cmult (Cdiv (b_q s0) (b_q s1)) e) (Cmult (Cdiv (b_qd s0) (b_q s1)) e) (Cdiv (b_qd s1) (b_q s1)).
(** 1746-1820 for a layer between the radii r and r1 (km) *)
Definition is_small (k : C) (r : R) : bool :=
  if Rlt_dec (Cmod (Cmult k (RtoC (r * 1000)))) zlimit then true else false.
Definition layer_ratios (fuel n : nat) (eps : R) (k : C) (r r1 : R) : option ratios :=
  let z0 := Cmult k (RtoC (r * 1000)) in
  let z1 := Cmult k (RtoC (r1 * 1000)) in
  if is_small k r then
    match small fuel n eps z0, small fuel n eps z1 with
    | Some s0, Some s1 => Some (ratios_of s0 s1 (RtoC 1))
    | _, _ => None
    end
  else Some (ratios_of (big n z0) (big n z1) (cexp (Copp (Cminus z0 z1)))).

(** 1822-1826 *)
Definition b_first (k : C) (v : ratios) : C :=
  Cdiv (Cmult k (Cminus (v2 v) (Cmult (v5 v) (v1 v)))) (Cminus (RtoC 1) (Cmult (v4 v) (v1 v))).
Definition b_next (k : C) (v : ratios) (b : C) : C :=
  Cdiv (Cmult k (Cplus (Cmult (Cminus (v2 v) (Cmult (v5 v) (v1 v))) b)
                       (Cmult k (Cminus (Cmult (v5 v) (v3 v)) (Cmult (v2 v) (v6 v))))))
       (Cplus (Cmult (Cminus (RtoC 1) (Cmult (v4 v) (v1 v))) b)
              (Cmult k (Cminus (Cmult (v4 v) (v3 v)) (v6 v)))).
(** The loop over the layers, 1745-1826, from the core to the surface; the
    last pair gives the radius of the core only. *)
Fixpoint b_layers (fuel n : nat) (eps period : R) (layers : list (R * R)) : option C :=
  match layers with
  | (s, r) :: (((_, r1) :: rest) as below) =>
      let k := k_of period s in
      match layer_ratios fuel n eps k r r1 with
      | None => None
      | Some v =>
          match rest with
          | [] => Some (b_first k v)
          | _ => match b_layers fuel n eps period below with None => None | Some b => Some (b_next k v b) end
          end
      end
  | _ => None
  end.

(** 1828: the C-response in km *)
Definition C_const (r0 : R) (b : C) : C :=
  Cdiv (RtoC r0) (Cplus (RtoC 1) (Cmult (RtoC (1000 * r0)) b)).
(** Outputs for one period: C, rho_a, Q (1835 and 1837; for the angle phi see M_QCall). *)
Definition response_const (fuel n : nat) (eps period : R) (layers : list (R * R)) : option (C * R * C) :=
  match b_layers fuel n eps period layers with
  | None => None
  | Some b =>
      let r0 := snd (nth 0 layers (0, 0)) in
      let c := C_const r0 b in
      Some (c, / 10 ^ 7 * 8 * PI ^ 2 / period * Cmod (Cmult c (RtoC 1000)) ^ 2, Q_of_C n (1000 * r0) c)
  end.

(** q_response_1D(periods, sigma, radius, n, kind='constant'): [enumerate]
    rejects a single number, and without a shell [b] is never assigned; without
    periods and layers radius[0] fails (1837).  The loop bound must suffice for every period. *)
Fixpoint all_some {A} (l : list (option A)) : option (list A) :=
  match l with
  | [] => Some []
  | None :: _ => None
  | Some x :: r => match all_some r with None => None | Some xs => Some (x :: xs) end
  end.
Definition q_response_constant (fuel : nat) (periods : nd R) (layers : list (R * R)) (n : nat) : option (result (list (C * R * C))) :=
  match sh periods with
  | [] => Some (Err TypeError)
  | [_] =>
      if ((1 <=? List.length (elems periods)) && (List.length layers <=? 1))%nat%bool then Some (Err OtherError)
      else if (List.length layers =? 0)%nat then Some (Err IndexError)
      else match all_some (map (fun t => response_const fuel n eps t layers) (elems periods)) with
           | None => None
           | Some l => Some (Ok l)
           end
  | _ => Some (Err ValueError)
  end.
