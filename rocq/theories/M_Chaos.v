(** Model of the class [CHAOS] (chaosmagpy/chaos.py 928-2162): construction,
    evaluation of the magnetospheric (GSM and SM) coefficients and values, the
    sum over sources, and the Euler angles.

    Simplifications: arithmetic is exact; warnings, prints and timing are
    dropped; [nmax] is not negative; coefficient vectors in SM and GSM are
    one-dimensional; the baseline corrections (breaks_delta, coeffs_delta) are
    given together; the files named in the configuration are values of an
    environment ([None]: the file does not exist); the last axis of a rotation
    spectrum is not stretched (NumPy would, if its length were one). *)
From Coq Require Import Reals List Arith ZArith String Ascii Bool.
From Coquelicot Require Import Complex.
From Verif Require Import M_Prelude M_ND Spec_Field M_SynthArr M_PP M_Spectrum M_Model M_Rotate.
Import ListNotations.
Open Scope R_scope.

(** ** Files and configuration *)

(** np.load of a file written by rotate_gauss_fft (chaos.py 1580-1603). *)
Record rotfile := mkrot { rf_freq : nd R; rf_spec : nd C; rf_freq_ind : nd R; rf_spec_ind : nd C;
                          rf_scaled : flag; rf_dipole : list R }.

(** The RC-index file: one row per epoch, (time, RC_e, RC_i). *)
Definition rctable := list (R * R * R).

(** basicConfig['file.GSM_spectrum'], ['file.SM_spectrum'], ['file.RC_index'],
    ['params.dipole'], ['params.r_surf']; [e_oob] is the value of array
    elements that the Legendre routine leaves unwritten. *)
Record env := mkenv { e_gsm : option rotfile; e_sm : option rotfile; e_rc : option rctable;
                      e_dipole : list R; e_rsurf : R; e_oob : R }.

Definition load {A} (f : option A) : result A := match f with Some x => Ok x | None => Err FileNotFoundError end.

Definition lists_equal (l1 l2 : list R) : bool := if list_eq_dec Req_EM_T l1 l2 then true else false.

(** ** The model object *)

(** breaks and coefficients of shape (order, pieces) of a baseline correction *)
Record delta := mkdelta { d_breaks : list R; d_order : nat; d_coeffs : nat -> nat -> R }.

(** An entry of model_euler: the object and meta['Euler_prerotation']. *)
Record euler := mkeuler { eu_base : base; eu_pre : option (list R) }.

Record chaos := mkchaos {
  ch_tdep : option field_model;
  ch_static : option field_model;
  ch_sm : option (list R);
  ch_gsm : option (list R);
  ch_delta : option (delta * delta * delta);                 (* q10, q11, s11 *)
  ch_euler : option (list (string * euler));
  ch_cal : option (list (string * base)) }.

Fixpoint lookup {A} (k : string) (l : list (string * A)) : option A :=
  match l with [] => None | (k', v) :: r => if (k =? k')%string then Some v else lookup k r end.

(** The argument [meta], as far as it is used: [None], a dictionary without
    meta['params']['Euler_prerotation'], or that list. *)
Inductive metadata := MetaNone | MetaPlain | MetaPre (l : list (list R)).

(** 1010-1013: only KeyError is caught *)
Definition prerotation (meta : metadata) (k : nat) : result (option (list R)) :=
  match meta with
  | MetaNone => Err TypeError
  | MetaPlain => Ok None
  | MetaPre l => match nth_error l k with Some p => Ok (Some p) | None => Err IndexError end
  end.

(** 1005-1024 *)
Definition euler_entry (coeffs : option (list (string * c3))) (meta : metadata)
    (k_sat_breaks : nat * (string * list R)) : result (string * euler) :=
  let '(k, (sat, breaks)) := k_sat_breaks in
  bind (prerotation meta k) (fun pre =>
  match coeffs with
  | None => Err TypeError
  | Some cs => match lookup sat cs with
               | None => Err KeyError
               | Some c => Ok (sat, mkeuler (base_init (Some breaks) (Some 1%Z) (Some c)) pre)
               end
  end).

(** 1030-1041 *)
Definition cal_entry (coeffs : option (list (string * c3))) (sat_breaks : string * list R) : result (string * base) :=
  let '(sat, breaks) := sat_breaks in
  match coeffs with
  | None => Err TypeError
  | Some cs => match lookup sat cs with
               | None => Err KeyError
               | Some c => Ok (sat, base_init (Some breaks) (Some 1%Z) (Some c))
               end
  end.

(** 928-1043 *)
Definition chaos_init (breaks : list R) (order : option Z) (tdep static : option c3) (sm gsm : option (list R))
    (dl : option (delta * delta * delta))
    (breaks_euler : option (list (string * list R))) (coeffs_euler : option (list (string * c3)))
    (breaks_cal : option (list (string * list R))) (coeffs_cal : option (list (string * c3)))
    (meta : metadata) : result chaos :=
  let m_tdep := option_map (fun c => model_init (Some breaks) order (Some c) (Some "internal"%string)) tdep in
  bind (match static with
        | None => Ok None
        | Some c => match breaks with
                    | [] => Err IndexError
                    | b :: _ => Ok (Some (model_init (Some [b; last breaks b]) (Some 1%Z) (Some c) (Some "internal"%string)))
                    end
        end) (fun m_static =>
  bind (match breaks_euler with
        | None => Ok None
        | Some l => bind (mapM (euler_entry coeffs_euler meta) (combine (seq 0 (List.length l)) l)) (fun x => Ok (Some x))
        end) (fun m_euler =>
  bind (match breaks_cal with
        | None => Ok None
        | Some l => bind (mapM (cal_entry coeffs_cal) l) (fun x => Ok (Some x))
        end) (fun m_cal =>
  Ok (mkchaos m_tdep m_static sm gsm dl m_euler m_cal)))).

(** dimension, 983-987 *)
Definition sm_degree (l : list R) : nat := Z.to_nat (degree_of_size (List.length l)).

(** The clipping of [nmax], 1553-1560 and 1757-1764 *)
Definition clip_nmax (nmax : option nat) (N : nat) : nat :=
  match nmax with None => N | Some n => if (N <? n)%nat then N else n end.

(** ** Internal field, 1218-1331 and 1405-1479 *)

Definition synth_values_tdep (E : env) (c : chaos) (time radius theta phi : nd R) (nmax deriv : option nat)
    (grid : option bool) (e : extrap) : result ofield :=
  match ch_tdep c with
  | None => Err ValueError
  | Some m => model_values (e_oob E) (e_rsurf E) m time radius theta phi nmax deriv grid e
  end.

Definition synth_coeffs_tdep (c : chaos) (time : nd R) (nmax deriv : option nat) (e : extrap) : result cres :=
  match ch_tdep c with None => Err ValueError | Some m => model_coeffs m time nmax deriv e end.

(** self.model_static.breaks[0] *)
Definition static_time (m : field_model) : R :=
  match b_breaks (m_base m) with Some (b :: _) => b | _ => 0 end.

Definition synth_coeffs_static (c : chaos) (nmax deriv : option nat) (e : extrap) : result cres :=
  match ch_static c with
  | None => Err ValueError
  | Some m => model_coeffs m (scalar (static_time m)) nmax deriv e
  end.

Definition synth_values_static (E : env) (c : chaos) (radius theta phi : nd R) (nmax deriv : option nat)
    (grid : option bool) (e : extrap) : result ofield :=
  match ch_static c with
  | None => Err ValueError
  | Some m => model_values (e_oob E) (e_rsurf E) m (scalar (static_time m)) radius theta phi nmax deriv grid e
  end.

(** ** Products of a rotation matrix and coefficients *)

(** np.matmul(M, v) for one vector [v] (1597, 1610) and
    np.einsum('...ij,...j', M, v) (1878, 1907-1908): [M] of shape (..., m, n),
    [v] of shape vsh + (n,). *)
Definition matvec (M : nd R) (vsh : list nat) (n : nat) (v : list nat -> nat -> R) : result carr :=
  let d := (List.length (sh M) - 2)%nat in
  let msh := firstn d (sh M) in
  if (nth (S d) (sh M) 0 =? n)%nat then
    bind (broadcast [msh; vsh]) (fun gsh =>
    Ok (mkcarr gsh (nth d (sh M) 0%nat) (fun x i =>
          Rsum (map (fun j => at_ M (bidx msh x ++ [i; j]) * v (bidx vsh x) j) (seq 0 n)))))
  else Err ValueError.

(** coeffs[..., :k] *)
Definition take_coeffs (k : nat) (c : carr) : carr := mkcarr (csh c) (Nat.min k (cdim c)) (cat c).

(** M[..., :3, :3], 1891 *)
Definition corner (M : nd R) : nd R :=
  let d := (List.length (sh M) - 2)%nat in
  mknd (firstn d (sh M) ++ map (Nat.min 3) (skipn d (sh M))) (at_ M).

(** ** GSM *)

(** 1518-1616 *)
Definition synth_coeffs_gsm (E : env) (c : chaos) (time : nd R) (nmax : option nat) (source : option string) : result carr :=
  match ch_gsm c with
  | None => Err ValueError
  | Some gsm =>
      let nmax := clip_nmax nmax (sm_degree gsm) in
      let source := match source with None => "external"%string | Some s => s end in
      match ch_static c with
      | None => Err AttributeError                               (* None.breaks *)
      | Some _ =>
          bind (amin (elems time)) (fun _ =>                     (* np.amin of an empty array *)
          bind (load (e_gsm E)) (fun f =>
          if negb (lists_equal (rf_dipole f) (e_dipole E)) then Err AssertionError else
          bind (if (source =? "external")%string then
                  bind (synth_rotate_gauss time (rf_freq f) (rf_spec f) (rf_scaled f)) (fun M =>
                  matvec M [] (List.length gsm) (fun _ j => nth j gsm 0))
                else if (source =? "internal")%string then
                  bind (synth_rotate_gauss time (rf_freq_ind f) (rf_spec_ind f) (rf_scaled f)) (fun M =>
                  matvec M [] (List.length gsm) (fun _ j => nth j gsm 0))
                else Err ValueError) (fun k =>
          Ok (take_coeffs (nmax * (nmax + 2)) k))))
      end
  end.

(** Sum of two fields with broadcasting, 1676-1678 and 2006-2008 *)
Definition field_add (F G : field) : result field :=
  bind (broadcast [f_sh F; f_sh G]) (fun g =>
  let plus (u v : list nat -> R) x := u (bidx (f_sh F) x) + v (bidx (f_sh G) x) in
  Ok (mkfield g (plus (f_r F) (f_r G)) (plus (f_t F) (f_t G)) (plus (f_p F) (f_p G)))).

Definition synth_of (E : env) (k : carr) (radius theta phi : nd R) (source : string) (grid : bool) : result field :=
  synth_values (e_oob E) (e_rsurf E) k radius theta phi None None None (Some source) grid.

(** 1618-1689 *)
Definition synth_values_gsm (E : env) (c : chaos) (time radius theta phi : nd R) (nmax : option nat)
    (source : option string) (grid : option bool) : result field :=
  let source := match source with None => "all"%string | Some s => s end in
  let grid := match grid with None => false | Some g => g end in
  if (source =? "all")%string then
    bind (synth_coeffs_gsm E c time nmax (Some "external"%string)) (fun kext =>
    bind (synth_coeffs_gsm E c time nmax (Some "internal"%string)) (fun kint =>
    bind (synth_of E kext radius theta phi "external" grid) (fun Fext =>
    bind (synth_of E kint radius theta phi "internal" grid) (fun Fint =>
    field_add Fext Fint))))
  else if ((source =? "external") || (source =? "internal"))%string%bool then
    bind (synth_coeffs_gsm E c time nmax (Some source)) (fun k =>
    synth_of E k radius theta phi source grid)
  else Err ValueError.

(** ** RC-index *)

(** scipy.interpolate.interp1d(x, y, kind='linear') (external code): the rows
    are sorted by x (assume_sorted=False, a stable sort), and the value at v
    is found on the segment that contains v. *)
Fixpoint insert_row (p : R * R) (l : list (R * R)) : list (R * R) :=
  match l with
  | [] => [p]
  | q :: r => if Rlt_dec (fst q) (fst p) then q :: insert_row p r else p :: l
  end.
Definition sort_rows (l : list (R * R)) : list (R * R) := fold_right insert_row [] l.

Fixpoint interp_sorted (l : list (R * R)) (v : R) : R :=
  match l with
  | [] => 0
  | (x0, y0) :: r =>
      match r with
      | [] => y0
      | (x1, y1) :: _ => if Rlt_dec v x1 then y0 + (y1 - y0) / (x1 - x0) * (v - x0) else interp_sorted r v
      end
  end.

(** RC._check_bounds(v) *)
Definition out_of_bounds (l : list (R * R)) (v : R) : bool :=
  if Rlt_dec v (fst (hd (0, 0) l)) then true else if Rlt_dec (fst (last l (0, 0))) v then true else false.

(** f_RC['RC_' + source[0]] *)
Definition rc_column (source : string) : result (R * R * R -> R) :=
  match String.get 0 source with
  | None => Err IndexError
  | Some ch => if Ascii.eqb ch "e"%char then Ok (fun row => snd (fst row))
               else if Ascii.eqb ch "i"%char then Ok (fun row => snd row)
               else Err KeyError
  end.

(** 1812-1842; an empty table has no interpolant *)
Definition rc_values (E : env) (source : string) (time : nd R) : result (nd R) :=
  bind (load (e_rc E)) (fun tab =>
  bind (rc_column source) (fun col =>
  let l := sort_rows (map (fun row => (fst (fst row), col row)) tab) in
  match l with
  | [] => Err ValueError
  | _ => if existsb (out_of_bounds l) (elems time) then Err ValueError
         else Ok (mknd (sh time) (fun i => interp_sorted l (at_ time i)))
  end)).

(** ** SM *)

(** a[...] = v: [v] is broadcast to the shape of [a]; surplus leading axes of
    length one are dropped. *)
Fixpoint drop_ones (surplus : nat) (s : list nat) : list nat :=
  match surplus, s with
  | S k, d :: s' => if (d =? 1)%nat then drop_ones k s' else s
  | _, _ => s
  end.
Definition shape_eqb (s t : list nat) : bool := if list_eq_dec Nat.eq_dec s t then true else false.
Definition assignable (target s : list nat) : bool :=
  match bshape target (drop_ones (List.length s - List.length target) s) with
  | Some u => shape_eqb u target
  | None => false
  end.
Definition assign (target s : list nat) : result unit := if assignable target s then Ok tt else Err ValueError.

(** sip.PPoly.construct_fast(coeffs, breaks, extrapolate=True)(t), 1847-1858 *)
Definition delta_at (d : delta) (t : R) : R :=
  match pp_eval (mkpp (d_breaks d) (d_order d) (fun r i _ => d_coeffs d r i) true) 0 t 0 with Some v => v | None => 0 end.

Definition nth_delta (ds : delta * delta * delta) (j : nat) : delta :=
  let '(q10, q11, s11) := ds in match j with 0%nat => q10 | 1%nat => q11 | _ => s11 end.

(** The SM coefficient vector at a time, 1870-1875 and 1899-1904: the first
    three are [first3], the others constant.  [sm] has [n] coefficients. *)
Definition sm_vector (sm : list R) (first3 : nat -> R) (j : nat) : R :=
  if (j <? 3)%nat then first3 j else nth j sm 0.

(** 1869-1912 after the rotation matrix *)
Definition sm_coeffs (f : rotfile) (sm : list R) (ds : delta * delta * delta) (time rc : nd R)
    (source : string) (M : nd R) : result carr :=
  let N := (sm_degree sm * (sm_degree sm + 2))%nat in
  if (source =? "external")%string then
    if (N <? 3)%nat then Err IndexError else
    bind (broadcast [sh rc; sh time]) (fun s =>
    bind (assign (sh time) s) (fun _ =>
    if negb ((List.length sm - 3 =? N - 3) || (List.length sm - 3 =? 1))%nat%bool then Err ValueError else
    matvec M (sh time) N (fun x =>
      sm_vector sm (fun j => bread rc x * nth j sm 0 + delta_at (nth_delta ds j) (at_ time x)))))
  else if (source =? "internal")%string then
    bind (synth_rotate_gauss time (rf_freq_ind f) (rf_spec_ind f) (rf_scaled f)) (fun Mind =>
    if (List.length sm <? 3)%nat then Err IndexError else
    bind (assign (sh time) (sh rc)) (fun _ =>
    if negb ((List.length sm - 3 =? N - 3) || (List.length sm - 3 =? 1))%nat%bool then Err ValueError else
    bind (matvec Mind (sh time) N (fun x =>
            sm_vector sm (fun j => delta_at (nth_delta ds j) (at_ time x)))) (fun k =>
    bind (matvec (corner M) (sh time) 3 (fun x j => bread rc x * nth j sm 0)) (fun k1 =>
    (* coeffs[..., :3] += ... *)
    bind (match bshape (csh k) (csh k1) with
          | Some u => if shape_eqb u (csh k) then Ok tt else Err ValueError
          | None => Err ValueError end) (fun _ =>
    if (cdim k1 =? Nat.min 3 (cdim k))%nat then
      Ok (mkcarr (csh k) (cdim k) (fun x i =>
            if (i <? 3)%nat then cat k x i + cat k1 (bidx (csh k1) x) i else cat k x i))
    else Err ValueError)))))
  else Err ValueError.

(** 1691-1914 *)
Definition synth_coeffs_sm (E : env) (c : chaos) (time : nd R) (nmax : option nat) (source : option string)
    (rc : option (nd R)) : result carr :=
  match ch_sm c with
  | None => Err ValueError
  | Some sm =>
      let nmax := clip_nmax nmax (sm_degree sm) in
      let source := match source with None => "external"%string | Some s => s end in
      match ch_delta c with
      | None => Err TypeError                                    (* None['q10'] *)
      | Some ds =>
          if existsb (fun j => (List.length (d_breaks (nth_delta ds j)) =? 0)%nat) [0; 1; 2]%nat then Err IndexError else
          bind (amin (elems time)) (fun _ =>
          bind (load (e_sm E)) (fun f =>
          if negb (lists_equal (rf_dipole f) (e_dipole E)) then Err AssertionError else
          bind (match rc with None => rc_values E source time | Some r => Ok r end) (fun rc =>
          bind (synth_rotate_gauss time (rf_freq f) (rf_spec f) (rf_scaled f)) (fun M =>
          bind (sm_coeffs f sm ds time rc source M) (fun k =>
          Ok (take_coeffs (nmax * (nmax + 2)) k))))))
      end
  end.

(** 1916-2024 *)
Definition synth_values_sm (E : env) (c : chaos) (time radius theta phi : nd R) (rc_e rc_i : option (nd R))
    (nmax : option nat) (source : option string) (grid : option bool) : result field :=
  let source := match source with None => "all"%string | Some s => s end in
  let grid := match grid with None => false | Some g => g end in
  if (source =? "all")%string then
    bind (synth_coeffs_sm E c time nmax (Some "external"%string) rc_e) (fun kext =>
    bind (synth_coeffs_sm E c time nmax (Some "internal"%string) rc_i) (fun kint =>
    bind (synth_of E kext radius theta phi "external" grid) (fun Fext =>
    bind (synth_of E kint radius theta phi "internal" grid) (fun Fint =>
    field_add Fext Fint))))
  else if ((source =? "external") || (source =? "internal"))%string%bool then
    let rc := if (source =? "external")%string then rc_e else rc_i in
    bind (synth_coeffs_sm E c time nmax (Some source) rc) (fun k =>
    synth_of E k radius theta phi source grid)
  else Err ValueError.

(** ** All sources *)

(** The argument source_list: [None], a string, or a list of strings *)
Inductive sources := SrcNone | SrcStr (s : string) | SrcList (l : list string).

(** 1105-1114 *)
Definition source_names (s : sources) : list string :=
  match s with
  | SrcNone => ["tdep"; "static"; "gsm"; "sm"]%string
  | SrcStr s => if (s =? "internal")%string then ["tdep"; "static"]%string
                else if (s =? "external")%string then ["gsm"; "sm"]%string
                else [s]
  | SrcList l => l
  end.

(** 'name' in source_list *)
Definition listed (name : string) (l : list string) : bool := existsb (String.eqb name) l.

Definition lift_field (F : field) : ofield :=
  mkofield (f_sh F) (fun x => Some (f_r F x)) (fun x => Some (f_t F x)) (fun x => Some (f_p F x)).

(** NaN propagates *)
Definition oadd (u v : option R) : option R :=
  match u, v with Some x, Some y => Some (x + y) | _, _ => None end.

(** B += B_new: the shape of B must not change *)
Definition iadd (B F : ofield) : result ofield :=
  match bshape (o_sh B) (o_sh F) with
  | Some u =>
      if shape_eqb u (o_sh B) then
        let plus (f g : list nat -> option R) x := oadd (f x) (g (bidx (o_sh F) x)) in
        Ok (mkofield (o_sh B) (plus (o_r B) (o_r F)) (plus (o_t B) (o_t F)) (plus (o_p B) (o_p F)))
      else Err ValueError
  | None => Err ValueError
  end.

(** if 'name' in source_list: B += new *)
Definition add_source (l : list string) (name : string) (new : result ofield) (B : result ofield) : result ofield :=
  bind B (fun B => if listed name l then bind new (fun F => iadd B F) else Ok B).

(** 1045-1207 *)
Definition call (E : env) (c : chaos) (time radius theta phi : nd R) (rc_e rc_i : option (nd R))
    (source_list : sources) (nmax_static : option nat) : result ofield :=
  let l := source_names source_list in
  bind (broadcast [sh time; sh radius; sh theta; sh phi]) (fun g =>
  let zero := mkofield g (fun _ => Some 0) (fun _ => Some 0) (fun _ => Some 0) in
  let B := Ok zero in
  let B := add_source l "tdep" (synth_values_tdep E c time radius theta phi None None None XNone) B in
  let nmax_static := match nmax_static with None => 85%nat | Some n => n end in
  let B := add_source l "static" (synth_values_static E c radius theta phi (Some nmax_static) None None XNone) B in
  let B := add_source l "gsm"
             (bind (synth_values_gsm E c time radius theta phi None (Some "all"%string) None) (fun F => Ok (lift_field F))) B in
  add_source l "sm"
    (bind (synth_values_sm E c time radius theta phi rc_e rc_i None (Some "all"%string) None) (fun F => Ok (lift_field F))) B).

(** ** Euler angles, 2106-2162 *)
Definition synth_euler_angles (c : chaos) (time : nd R) (satellite : string) (dim deriv : option nat) (e : extrap) : result cres :=
  match ch_euler c with
  | None => Err TypeError                                        (* argument of type 'NoneType' is not iterable *)
  | Some l => match lookup satellite l with
              | None => Err ValueError
              | Some m => synth_coeffs (eu_base m) time dim deriv e
              end
  end.
