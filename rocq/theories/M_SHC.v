(** Model of [load_shcfile] (chaosmagpy/data_utils.py 219-286) and
    [save_shcfile] (289-381) at the level of the characters of the file.

    The numbers are rationals, the file system maps paths to contents.  A file
    opened for writing is truncated at once and keeps what was written before
    an exception.  Not modelled: NaN and infinite values, disk errors. *)
From Coq Require Import List Arith ZArith QArith Qabs Qround Ascii String Bool.
From Verif Require Import M_Prelude M_Time M_Text.
Import ListNotations.

(** ** load_shcfile *)
(** 'SHC' and the values of the parameter line, in the order nmin, nmax, N, order, step. *)
Record shc := mkshc { l_time : list Q; l_rows : list (list Q); l_params : list Z }.

(** data_utils.py 255-274: parameter values (None before the first line that is
    not a comment) and the numbers of the other lines. *)
Definition load_line (comment : text) (st : option (list Z) * list Q) (line : text) : option (list Z) * list Q :=
  if is_comment comment line then st
  else let '(values, data) := st in
       match values with
       | None => (Some (map Qtrunc (fromstring line)), data)
       | Some _ => (values, (data ++ fromstring line)%list)
       end.

(** rows of length w *)
Fixpoint chunk (fuel w : nat) (l : list Q) : list (list Q) :=
  match fuel with
  | O => []
  | S f => match l with [] => [] | _ => firstn w l :: chunk f w (skipn w l) end
  end.

(** l[:n] and l[n:] with Python's meaning of negative n *)
Definition slice_pos (n : Z) (len : nat) : nat :=
  if (n <? 0)%Z then Z.to_nat (Z.max 0 (n + Z.of_nat len)) else Nat.min (Z.to_nat n) len.

(** data_utils.py 219-286 *)
Definition load_shcfile (content : text) (leap_year : option bool) (comment : option text) : result shc :=
  let comment := match comment with None => ["#"%char] | Some c => c end in
  let '(values, data) := fold_left (load_line comment) (lines content) (None, []) in
  match values with
  | None => Err OtherError                                    (* UnboundLocalError *)
  | Some values =>
      match nth_error values 2 with
      | None => Err KeyError                                  (* parameters['N'] *)
      | Some N =>
          let k := slice_pos N (List.length data) in
          let time := firstn k data in
          let rest := skipn k data in
          let w := Z.to_nat (N + 2) in
          if (N + 2 <=? 0)%Z then Err ValueError
          else if negb (List.length rest mod w =? 0)%nat then Err ValueError
          else bind (mapM (fun t => dyear_to_mjd t (Some (match leap_year with None => true | Some b => b end))) time)
                 (fun mjd => Ok (mkshc mjd (map (skipn 2) (chunk (List.length rest) w rest)) values))
      end
  end.

(** ** save_shcfile *)
(** The time argument, as scalar or one-dimensional. *)
Inductive times := TScalar (t : Q) | TVec (l : list Q).
(** The coefficients: a vector or an array with [c_rows] rows and [c_cols] columns. *)
Record coefs := mkcoefs { c_one_dim : bool; c_rows : nat; c_cols : nat; c_at : nat -> nat -> Q }.

Definition file_system := string -> option text.
Definition write_file (fs : file_system) (path : string) (t : text) : file_system :=
  fun p => if (p =? path)%string then Some t else fs p.

(** sign and magnitude of '{:16.8f}' *)
Definition fmt_q (x : Q) : text := fmt8 (if Qlt_le_dec x 0 then true else false) (round_half_even (Qabs x * 100000000)).

(** Output so far and whether an exception stopped the writing. *)
Definition writer := (text * option exn)%type.
Definition emit (w : writer) (t : text) : writer := match w with (o, None) => ((o ++ t)%list, None) | _ => w end.
Definition raise_ (w : writer) (e : exn) : writer := match w with (o, None) => (o, Some e) | _ => w end.

Definition nl : text := ["010"%char].

(** degrees and orders, data_utils.py 347-353 *)
Definition deg_ord (nmin nmax : nat) : list (nat * Z) :=
  flat_map (fun n => (n, 0%Z) :: flat_map (fun m => [(n, Z.of_nat m); (n, (- Z.of_nat m)%Z)]) (seq 1 n)) (seq nmin (nmax + 1 - nmin)).

(** data_utils.py 355-359; [now] is the date text *)
Definition comment_text (header now : text) (leap_year : bool) (nmin nmax : Z) (size : nat) (order : Z) : text :=
  (header ++ txt "# Created on " ++ now ++ txt " UTC." ++ nl
   ++ txt "# Leap years are accounted for in decimal years format (" ++ txt (if leap_year then "True" else "False") ++ txt ")." ++ nl
   ++ print_Z nmin ++ txt " " ++ print_Z nmax ++ txt " " ++ print_Z (Z.of_nat size) ++ txt " " ++ print_Z order
   ++ txt " " ++ print_Z (order - 1) ++ nl)%list.

(** data_utils.py 361-378: writing the file *)
Definition write_shc (comment : text) (time : times) (leap_year : bool) (nmin nmax : nat)
    (rows cols first : nat) (at_ : nat -> nat -> Q) : writer :=
  let w := emit ([], None) comment in
  let w := emit w (txt "  ") in
  let w := match time with
           | TScalar _ => raise_ w TypeError                 (* iteration over a 0-d array *)
           | TVec l => fold_left (fun w t => match mjd_to_dyear t (Some leap_year) with
                                             | Err e => raise_ w e
                                             | Ok y => emit w (txt " " ++ fmt_q y)%list
                                             end) l w
           end in
  let w := emit w nl in
  snd (fold_left (fun '(row, w) '(n, m) =>
         let w := emit w (print_Z (Z.of_nat n) ++ txt " " ++ print_Z m)%list in
         let w := if (row <? cols)%nat
                  then emit w (flat_map (fun i => txt " " ++ fmt_q (at_ i (first + row)%nat)) (seq 0 rows))%list
                  else raise_ w IndexError in
         (S row, emit w nl)) (deg_ord nmin nmax) (0%nat, w)).

(** data_utils.py 289-381 *)
Definition save_shcfile (now : text) (fs : file_system) (time : times) (coeffs : coefs) (order : option Z)
    (filepath : option string) (nmin nmax : option Z) (leap_year : option bool) (header : option text)
  : file_system * result unit :=
  let order := match order with None => 1%Z | Some o => o end in
  let nmin := match nmin with None => 1%Z | Some n => n end in
  let nmax := match nmax with None => (Z.sqrt (Z.of_nat (c_cols coeffs) + 1) - 1)%Z | Some n => n end in
  if (nmax <? nmin)%Z then (fs, Err ValueError) else
  let filepath := match filepath with None => "model.shc"%string | Some p => p end in
  let header := match header with None => [] | Some h => h end in
  let leap_year := match leap_year with None => true | Some b => b end in
  let rows := if c_one_dim coeffs then 1%nat else c_rows coeffs in
  (* coeffs[:, nmin**2-1 : (nmax+1)**2-1] *)
  let a := slice_pos (nmin * nmin - 1) (c_cols coeffs) in
  let b := slice_pos ((nmax + 1) * (nmax + 1) - 1) (c_cols coeffs) in
  if (nmin <? 0)%Z then (fs, Err ValueError) else             (* np.repeat(n, 2n+1) *)
  let size := match time with TScalar _ => 1%nat | TVec l => List.length l end in
  let '(t, e) := write_shc (comment_text header now leap_year nmin nmax size order) time leap_year
                   (Z.to_nat nmin) (Z.to_nat nmax) rows (b - a) a (c_at coeffs) in
  (write_file fs filepath t, match e with None => Ok tt | Some x => Err x end).
