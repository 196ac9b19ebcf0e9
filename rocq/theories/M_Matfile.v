(** Model of saving a CHAOS model to a MAT-file and loading it
    (chaosmagpy/chaos.py: Base.to_ppdict 215-241, Base.save_matfile 243-263,
    CHAOS.save_matfile 2241-2349, load_CHAOS_matfile 2437-2656;
    chaosmagpy/data_utils.py: load_matfile 42-110).

    Simplifications: hdf5storage (external code) stores and returns arrays of
    at least two dimensions unchanged, and hdf.write to an existing file
    replaces the variable it writes and keeps the others (its default
    truncate_existing=False); numbers are not rounded; file-system errors,
    warnings and prints are dropped; the baseline corrections have one row of
    coefficients per piece (order one) when they are loaded. *)
From Coq Require Import Reals List Arith ZArith String Bool DecimalString.
From Verif Require Import M_Prelude M_ND Spec_Field M_PP M_Model M_Chaos.
Import ListNotations.
Open Scope R_scope.

(** ** NumPy arrays: shape and values in C order *)
Record arr := mkarr { a_sh : list nat; a_v : list R }.

(** a.squeeze() *)
Definition squeeze (a : arr) : arr := mkarr (filter (fun d => negb (d =? 1)%nat) (a_sh a)) (a_v a).

(** a.transpose() of an array of at most two dimensions *)
Definition transpose (a : arr) : arr :=
  match a_sh a with
  | [m; n] => mkarr [n; m] (map (fun p => nth ((p mod m) * n + p / m) (a_v a) 0) (seq 0 (m * n)))
  | _ => a
  end.

(** a.reshape((k, -1)) *)
Definition reshape_rows (k : nat) (a : arr) : result arr :=
  if (k =? 0)%nat then Err ValueError
  else if (List.length (a_v a) mod k =? 0)%nat then Ok (mkarr [k; List.length (a_v a) / k]%nat (a_v a)) else Err ValueError.

(** a.reshape(s) *)
Definition reshape (s : list nat) (a : arr) : result arr :=
  if (List.length (a_v a) =? fold_right Nat.mul 1 s)%nat then Ok (mkarr s (a_v a)) else Err ValueError.

Definition column (l : list R) : arr := mkarr [List.length l; 1%nat] l.
Definition row (l : list R) : arr := mkarr [1%nat; List.length l] l.

(** an array of shape (k, m, d) in C order, and back *)
Definition flat3 (c : c3) : arr :=
  mkarr [c_k c; c_m c; c_d c]
    (map (fun p => c_v c (p / (c_m c * c_d c)) (p / c_d c mod c_m c) (p mod c_d c))%nat (seq 0 (c_k c * (c_m c * c_d c)))).
Definition cube (k m d : nat) (l : list R) : c3 := mkc3 k m d (fun r i j => nth ((r * m + i) * d + j) l 0).

(** ** pp-form *)
Record ppdict := mkppd { pp_order : nat; pp_pieces : nat; pp_dim : nat; pp_breaks : arr; pp_coefs : arr }.

(** chaos.py 215-241 *)
Definition to_ppdict (b : base) : result ppdict :=
  match b_order b, b_pieces b, b_dim b, b_breaks b, b_coeffs b with
  | Some order, Some pieces, Some dim, Some breaks, Some c =>
      bind (reshape_rows (Z.to_nat order) (flat3 c)) (fun a =>
      Ok (mkppd (Z.to_nat order) (Z.to_nat pieces) dim (row breaks) (transpose a)))
  | _, _, _, _, _ => Err AttributeError
  end.

(** ** Content of a MAT-file *)
Record extdict := mkext { x_tq10 : arr; x_q10 : arr; x_tqs11 : arr; x_qs11 : arr; x_sm : arr; x_gsm : arr; x_dst : arr }.

(** np.array(list_of_arrays, dtype='object'): a one-dimensional array of
    arrays if the shapes differ; if they are all equal NumPy makes one
    three-dimensional array of numbers, the reading of which is not modelled. *)
Inductive cells := Cells (l : list arr) | Stacked (l : list arr).

Record eulerdict := mkeud { u_breaks : cells; u_alpha : cells; u_beta : cells; u_gamma : cells }.

(** [mf_params] is params['Euler_prerotation']. *)
Record matfile := mkmat { mf_pp : option ppdict; mf_g : option arr; mf_ext : option extdict;
                          mf_euler : option eulerdict; mf_cal : option (list ppdict); mf_params : option (list (list R)) }.
Definition no_file : matfile := mkmat None None None None None None.

(** ** Saving *)

(** self.meta: None, or meta['params'] = {'Euler_prerotation': pre} and
    meta['satellites'] *)
Inductive smeta := SNone | SMeta (pre : list (list R)) (satellites : list string).

Definition same_shapes (l : list arr) : bool :=
  match l with [] => false | a :: r => forallb (fun b => shape_eqb (a_sh b) (a_sh a)) r end.
Definition object_array (l : list arr) : cells := if same_shapes l then Stacked l else Cells l.

Definition mean (l : list R) : R := Rsum l / INR (List.length l).

(** the array coeffs_delta[...] of shape (order, pieces), raveled *)
Definition delta_flat (d : delta) : list R :=
  let n := (List.length (d_breaks d) - 1)%nat in
  map (fun p => d_coeffs d (p / n) (p mod n))%nat (seq 0 (d_order d * n)).

(** coeffs_gsm[[0, 3]] *)
Definition pick_gsm (l : list R) : result (list R) :=
  match nth_error l 0, nth_error l 3 with Some a, Some b => Ok [a; b] | _, _ => Err IndexError end.

(** np.stack((q11, s11), axis=-1) *)
Definition stack2 (a b : list R) : result arr :=
  if (List.length a =? List.length b)%nat
  then Ok (mkarr [List.length a; 2%nat] (flat_map (fun p => [fst p; snd p]) (combine a b)))
  else Err ValueError.

(** 2261-2289 *)
Definition save_ext (sm gsm : option (list R)) (ds : delta * delta * delta) : result extdict :=
  let '(q10, q11, s11) := ds in
  bind (stack2 (delta_flat q11) (delta_flat s11)) (fun qs11 =>
  match sm with
  | None => Err TypeError
  | Some sm =>
      let m_sm := [mean (delta_flat q10); mean (delta_flat q11); mean (delta_flat s11)] ++ skipn 3 sm in
      if (List.length sm <? 3)%nat then Err ValueError else
      match gsm with
      | None => Err TypeError
      | Some gsm =>
          bind (pick_gsm gsm) (fun g2 =>
          Ok (mkext (column (d_breaks q10)) (column (delta_flat q10)) (column (d_breaks q11)) qs11
                (column m_sm) (column g2) (column (firstn 3 sm))))
      end
  end).

(** 2302-2317, one satellite *)
Definition save_euler_entry (es : list (string * euler)) (sat : string) : result (arr * arr * arr * arr) :=
  match lookup sat es with
  | None => Err KeyError
  | Some e =>
      match b_breaks (eu_base e), b_coeffs (eu_base e) with
      | Some breaks, Some c =>
          match breaks with
          | [] => Err IndexError
          | b :: _ =>
              let breaks := if Req_EM_T b (last breaks b) then [b] else breaks in
              if (c_k c =? 0)%nat || (c_d c <? 3)%nat then Err IndexError else
              let angle d := column (map (fun i => c_v c 0%nat i d) (seq 0 (c_m c))) in
              Ok (column breaks, angle 0%nat, angle 1%nat, angle 2%nat)
          end
      | _, _ => Err TypeError
      end
  end.

(** 2291-2330 *)
Definition save_euler (es : list (string * euler)) (meta : smeta) : result eulerdict :=
  match meta with
  | SNone => Err TypeError
  | SMeta _ satellites =>
      bind (mapM (save_euler_entry es) satellites) (fun l =>
      Ok (mkeud (object_array (map (fun q => fst (fst (fst q))) l)) (object_array (map (fun q => snd (fst (fst q))) l))
                (object_array (map (fun q => snd (fst q)) l)) (object_array (map snd l))))
  end.

(** One hdf.write after the computation of its data; the file is changed by
    the parts that were written before an exception. *)
Definition step (w : matfile -> result matfile) (s : matfile * result unit) : matfile * result unit :=
  match snd s with
  | Err _ => s
  | Ok _ => match w (fst s) with Ok f => (f, Ok tt) | Err e => (fst s, Err e) end
  end.

Definition set_pp x f := mkmat (Some x) (mf_g f) (mf_ext f) (mf_euler f) (mf_cal f) (mf_params f).
Definition set_g x f := mkmat (mf_pp f) (Some x) (mf_ext f) (mf_euler f) (mf_cal f) (mf_params f).
Definition set_ext x f := mkmat (mf_pp f) (mf_g f) (Some x) (mf_euler f) (mf_cal f) (mf_params f).
Definition set_euler x f := mkmat (mf_pp f) (mf_g f) (mf_ext f) (Some x) (mf_cal f) (mf_params f).
Definition set_cal x f := mkmat (mf_pp f) (mf_g f) (mf_ext f) (mf_euler f) (Some x) (mf_params f).
Definition set_params x f := mkmat (mf_pp f) (mf_g f) (mf_ext f) (mf_euler f) (mf_cal f) (Some x).

(** CHAOS.save_matfile(self, filepath), 2241-2349; [f] is the content of the
    file before. *)
Definition save_matfile (c : chaos) (meta : smeta) (f : matfile) : matfile * result unit :=
  let s := (f, Ok tt) in
  let s := match ch_tdep c with
           | None => s
           | Some m => step (fun f => bind (to_ppdict (m_base m)) (fun pp => Ok (set_pp pp f))) s
           end in
  let s := match ch_delta c with
           | None => s
           | Some ds => step (fun f => bind (save_ext (ch_sm c) (ch_gsm c) ds) (fun x => Ok (set_ext x f))) s
           end in
  let s := match ch_euler c with
           | None | Some [] => s
           | Some es => step (fun f => bind (save_euler es meta) (fun x => Ok (set_euler x f))) s
           end in
  let s := match ch_cal c with
           | None | Some [] => s
           | Some cs => step (fun f => bind (mapM (fun sm => to_ppdict (snd sm)) cs) (fun l => Ok (set_cal l f))) s
           end in
  let s := match ch_static c with
           | None => s
           | Some m => step (fun f => match b_coeffs (m_base m) with
                                      | None => Err OtherError                        (* np.ravel(None) *)
                                      | Some k => Ok (set_g (column (a_v (flat3 k))) f)
                                      end) s
           end in
  match meta with SNone => s | SMeta pre _ => step (fun f => Ok (set_params pre f)) s end.

(** ** Loading *)

(** f'satellite_{counter}' *)
Definition generic_name (k : nat) : string := ("satellite_" ++ NilEmpty.string_of_uint (Nat.to_uint k))%string.

(** 2586-2596: the names in use, and the caller's list afterwards *)
Definition name_satellites (n : nat) (satellites : list string) : list string * list string :=
  let m := List.length satellites in
  if (n <? m)%nat then (firstn n satellites, satellites)
  else let l := satellites ++ map generic_name (seq (m + 1) (n - m)) in (l, l).

(** d[k] = v *)
Fixpoint dict_set {A} (k : string) (v : A) (d : list (string * A)) : list (string * A) :=
  match d with
  | [] => [(k, v)]
  | (k', v') :: r => if (k =? k')%string then (k, v) :: r else (k', v') :: dict_set k v r
  end.
Definition make_dict {A} (l : list (string * A)) : list (string * A) :=
  fold_left (fun d kv => dict_set (fst kv) (snd kv) d) l [].

(** model_euler[angle][num] for the three angles, np.concatenate(axis=-1) *)
Definition load_angles (a b g : list arr) (num : nat) : result c3 :=
  match nth_error a num, nth_error b num, nth_error g num with
  | Some a, Some b, Some g =>
      if shape_eqb (a_sh a) (a_sh b) && shape_eqb (a_sh a) (a_sh g)
      then Ok (mkc3 1 (List.length (a_v a)) 3 (fun _ i d => nth i (match d with 0%nat => a_v a | 1%nat => a_v b | _ => a_v g end) 0))
      else Err ValueError
  | _, _, _ => Err IndexError
  end.

Definition default_satellites : list string :=
  ["oersted"; "champ"; "sac_c"; "swarm_a"; "swarm_b"; "swarm_c"; "cryosat-2_1"; "cryosat-2_2"; "cryosat-2_3"]%string.

(** 2562-2582 *)
Definition load_ext (x : extdict) : result (list R * list R * (delta * delta * delta)) :=
  let sm := a_v (squeeze (x_sm x)) in
  let dst := a_v (squeeze (x_dst x)) in
  if negb (Nat.min 3 (List.length sm) =? List.length dst)%nat then Err ValueError else
  match a_v (squeeze (x_gsm x)) with
  | [g0; g3] =>
      let qs := squeeze (x_qs11 x) in
      match a_sh qs with
      | [n; 2%nat] =>
          let d b v := mkdelta b 1 (fun _ i => nth i v 0) in
          let col j := map (fun i => nth (i * 2 + j) (a_v qs) 0) (seq 0 n) in
          Ok (dst ++ skipn 3 sm, [g0; 0; 0; g3; 0; 0; 0; 0],
              (d (a_v (squeeze (x_tq10 x))) (a_v (squeeze (x_q10 x))),
               d (a_v (squeeze (x_tqs11 x))) (col 0%nat), d (a_v (squeeze (x_tqs11 x))) (col 1%nat)))
      | _ => Err IndexError                                      (* qs11[:, 0] *)
      end
  | _ => Err ValueError
  end.

(** 2583-2611; a file with one satellite and stacked cells are not modelled *)
Definition load_euler (u : eulerdict) (satellites : list string)
  : result (list (string * list R) * list (string * c3) * (list string * list string)) :=
  match u_breaks u, u_alpha u, u_beta u, u_gamma u with
  | Cells tb, Cells a, Cells b, Cells g =>
      let names := name_satellites (List.length tb) satellites in
      let sats := fst names in
      bind (mapM (load_angles a b g) (seq 0 (List.length sats))) (fun ks =>
      Ok (make_dict (combine sats (map (fun t => a_v (squeeze t)) tb)), make_dict (combine sats ks), names))
  | _, _, _, _ => Err OtherError
  end.

(** load_CHAOS_matfile(filepath, satellites=satellites), 2511-2656: the model,
    meta['satellites'] and the caller's list afterwards.  A missing entry
    params gives {'Euler_prerotation': None}, which cannot be indexed. *)
Definition load_CHAOS_matfile (f : matfile) (satellites : option (list string)) : result (chaos * list string * list string) :=
  let satellites := match satellites with None => default_satellites | Some l => l end in
  match mf_pp f with
  | None => Err KeyError
  | Some pp =>
      bind (reshape [pp_order pp; pp_pieces pp; pp_dim pp] (transpose (squeeze (pp_coefs pp)))) (fun ct =>
      let static := option_map (fun g => cube 1 1 (List.length (a_v g)) (a_v g)) (mf_g f) in
      bind (match mf_ext f with
            | None => Ok (None, None, None)
            | Some x => bind (load_ext x) (fun q => let '(sm, gsm, ds) := q in Ok (Some sm, Some gsm, Some ds))
            end) (fun e => let '(sm, gsm, ds) := e in
      bind (match mf_euler f with
            | None => Ok (None, None, (satellites, satellites))
            | Some u => bind (load_euler u satellites) (fun q => let '(b, k, n) := q in Ok (Some b, Some k, n))
            end) (fun e => let '(be, ce, names) := e in
      bind (match mf_cal f with
            | None => Ok (None, None)
            | Some [p] =>
                let v := a_v (squeeze (pp_coefs p)) in
                if (List.length v mod 9 =? 0)%nat
                then Ok (Some [("cryosat-2_1"%string, a_v (squeeze (pp_breaks p)))], Some [("cryosat-2_1"%string, cube 1 (List.length v / 9) 9 v)])
                else Err ValueError
            | Some _ => Err IndexError                           (* an array, not a dictionary *)
            end) (fun e => let '(bc, cc) := e in
      bind (chaos_init (a_v (squeeze (pp_breaks pp))) (Some (Z.of_nat (pp_order pp)))
              (Some (cube (pp_order pp) (pp_pieces pp) (pp_dim pp) (a_v ct))) static sm gsm ds be ce bc cc
              (match mf_params f with None => MetaNone | Some l => MetaPre l end)) (fun c =>
      Ok (c, fst names, snd names))))))
  end.
