(** Properties C10-C17 and C73: the configuration dictionary.  The Python
    built-ins float(str), int(str), str(object), the open file descriptors,
    the writable paths and the directory of the package are arbitrary. *)
From Coq Require Import List Ascii String ZArith QArith Bool Lia.
From Verif Require Import M_Prelude Spec_Config Spec_ConfigIn M_Config P_Config P_Config2 P_Config3 P_Config4.
Import ListNotations.
Open Scope string_scope.

Section Props.
Variable parse_float : string -> option flt.
Variable parse_int : string -> option Z.
Variable str_of : value -> string.
Variable str_elem : elem -> string.
Variable fd_open : Z -> bool.
Variable writable : string -> bool.
Variable LIB : string.
Local Notation run := (run parse_float parse_int str_of str_elem fd_open writable LIB).
Local Notation init := (init LIB).

(** A state some history of configuration operations ends in, normally or by
    an exception. *)
Definition reached (s : st) : Prop :=
  exists files p o, no_update p /\ run p (init files) = (s, o).

(** [v] names an existing file (or is None or an open descriptor). *)
Definition file_exists (s : st) (v : value) : Prop :=
  match v with
  | VNone => True
  | VStr p | VPath p => fs s p <> None
  | VInt z => fd_open z = true
  | VBool b => fd_open (if b then 1 else 0)%Z = true
  | _ => False
  end.

Theorem C10_configuration_is_always_valid : forall files p s o,
  no_update p -> run p (init files) = (s, o) ->
  (forall k, read s k <> None <-> In k (map fst documented)) /\
  (forall k kd v, In (k, kd) documented -> read s k = Some v -> well_typed kd v).
Proof. exact (C10 parse_float parse_int str_of str_elem fd_open writable LIB). Qed.

Theorem C73_mapping_interface_validates_refuted : ~ (forall files p s o,
  run p (init files) = (s, o) ->
  forall k kd v, In (k, kd) documented -> read s k = Some v -> well_typed kd v).
Proof. exact (C73_refuted parse_float parse_int str_of str_elem fd_open writable LIB). Qed.

Theorem C11_rejected_assignment_changes_nothing : forall s k v s' e,
  run (SetItem k v) s = (s', Some e) -> s' = s.
Proof. exact (C11_set parse_float parse_int str_of str_elem fd_open writable LIB). Qed.

Theorem C11_rejected_reset_changes_nothing : forall s k s' e,
  run (Reset k) s = (s', Some e) -> s' = s.
Proof. exact (C11_reset parse_float parse_int str_of str_elem fd_open writable LIB). Qed.

Theorem C11_unknown_keys_are_rejected : forall s k v, ~ In k (map fst documented) ->
  run (SetItem k v) s = (s, Some KeyError) /\ run (Reset k) s = (s, Some KeyError).
Proof. exact (C11_unknown parse_float parse_int str_of str_elem fd_open writable LIB). Qed.

(** What cannot be converted is rejected, with these exceptions. *)
Theorem C11_unconvertible_values_are_rejected : forall s k kd v, In (k, kd) documented ->
  (forall c, ~ converted parse_float parse_int str_of str_elem (fun z => fd_open z = true) (fun p => fs s p <> None) kd v c) ->
  exists e, run (SetItem k v) s = (s, Some e) /\ rejection kd v e.
Proof. exact (set_rejected parse_float parse_int str_of str_elem fd_open writable LIB). Qed.

Theorem C11_reading_an_unknown_key_raises : forall s k f, reached s -> ~ In k (map fst documented) ->
  run (Get k f) s = (s, Some KeyError).
Proof.
  intros s k f (files & p & o & N & E) K.
  apply (get_unknown parse_float parse_int str_of str_elem fd_open writable LIB); [|exact K]. eapply reachable_inv. exists p, o. eauto.
Qed.

(** An assignment stores the converted value (Spec_ConfigIn) or nothing. *)
Theorem C12_assignment_stores_the_converted_value : forall s k kd v c, In (k, kd) documented ->
  ((exists s', run (SetItem k v) s = (s', None) /\ read s' k = Some c) <->
   converted parse_float parse_int str_of str_elem (fun z => fd_open z = true) (fun p => fs s p <> None) kd v c).
Proof. exact (set_converted parse_float parse_int str_of str_elem fd_open writable LIB). Qed.

Theorem C12_assignment_touches_one_key : forall s k v s', reached s ->
  run (SetItem k v) s = (s', None) ->
  (exists kd c, In (k, kd) documented /\ read s' k = Some c /\ well_typed kd c) /\
  (forall k', k' <> k -> read s' k' = read s k').
Proof.
  intros s k v s' (files & p & o & N & E). apply C12_frame. eapply reachable_inv. exists p, o. eauto.
Qed.

Theorem C12_reassigning_what_was_read_changes_nothing : forall s k v s' c, reached s ->
  run (SetItem k v) s = (s', None) -> read s' k = Some c ->
  exists s'', run (SetItem k c) s' = (s'', None) /\ forall k', read s'' k' = read s' k'.
Proof.
  intros s k v s' c (files & p & o & N & E). apply C12_again. eapply reachable_inv. exists p, o. eauto.
Qed.

(** A value of the documented type is stored as it is. *)
Theorem C12_typed_values_are_stored_exactly : forall s k kd v, In (k, kd) documented -> well_typed kd v ->
  (kd = KPath -> file_exists s v) ->
  exists s', run (SetItem k v) s = (s', None) /\ read s' k = Some v.
Proof. exact (C12_exact parse_float parse_int str_of str_elem fd_open writable LIB). Qed.

(** Integers are converted for float keys, lists of floats for vector keys. *)
Theorem C12_integers_become_floats : forall s k z, In (k, KFloat) documented ->
  exists s', run (SetItem k (VInt z)) s = (s', None) /\ read s' k = Some (VFloat (Fin (inject_Z z))).
Proof. exact (C12_int_to_float parse_float parse_int str_of str_elem fd_open writable LIB). Qed.

Theorem C12_lists_become_vectors : forall s k n fl, In (k, KVector n) documented -> List.length fl = n ->
  exists s', run (SetItem k (VList (map VFloat fl))) s = (s', None) /\ read s' k = Some (VVec (map EFloat fl)).
Proof. exact (C12_list_to_vector parse_float parse_int str_of str_elem fd_open writable LIB). Qed.

Theorem C12_vectors_of_wrong_length_are_rejected : forall s k n l, In (k, KVector n) documented -> List.length l <> n ->
  run (SetItem k (VList l)) s = (s, Some ValueError) /\
  (forall es, List.length es <> n -> run (SetItem k (VVec es)) s = (s, Some ValueError)).
Proof. exact (C12_wrong_length parse_float parse_int str_of str_elem fd_open writable LIB). Qed.

(** basicConfig[k][i] = x, after any history: no two keys share an array. *)
Theorem C12_item_assignment_touches_one_key : forall files p s o k i x, no_update p -> run p (init files) = (s, o) ->
  match read s k with
  | None => run (Mutate k i x) s = (s, Some KeyError)
  | Some (VVec l) =>
      if (i <? List.length l)%nat
      then exists s', run (Mutate k i x) s = (s', None) /\ read s' k = Some (VVec (firstn i l ++ x :: skipn (S i) l)%list) /\
             forall k', k' <> k -> read s' k' = read s k'
      else run (Mutate k i x) s = (s, Some IndexError)
  | Some _ => run (Mutate k i x) s = (s, Some TypeError)
  end.
Proof. exact (in_place parse_float parse_int str_of str_elem fd_open writable LIB). Qed.

(** C13, for bodies that do not modify configuration arrays in place. *)
Theorem C13_context_restores : forall s k v body s', reached s -> no_inplace body -> no_update body ->
  run (With k v body) s = (s', None) ->
  read s' k = read s k /\
  exists s1 s2, run (SetItem k v) s = (s1, None) /\ run body s1 = (s2, None) /\
    forall k', k' <> k -> read s' k' = read s2 k'.
Proof.
  intros s k v body s' (files & p & o & N & E). apply C13. eapply reachable_inv. exists p, o. eauto.
Qed.

(** The exit of the block succeeds if the body did and the old file is still there. *)
Theorem C13_context_exit_succeeds : forall s k kd v body s1 s2 old, reached s -> no_inplace body -> no_update body ->
  In (k, kd) documented -> read s k = Some old ->
  run (SetItem k v) s = (s1, None) -> run body s1 = (s2, None) -> (kd = KPath -> file_exists s2 old) ->
  exists s', run (With k v body) s = (s', None).
Proof.
  intros s k kd v body s1 s2 old (files & p & o & N & E). apply C13_exit. eapply reachable_inv. exists p, o. eauto.
Qed.

(** C14 is false: an exception in the body leaves the temporary value. *)
Theorem C14_context_restores_on_exception_refuted : ~ (forall files k v body s' e, no_inplace body -> no_update body ->
  run (With k v body) (init files) = (s', Some e) -> read s' k = read (init files) k).
Proof. exact (C14_refuted parse_float parse_int str_of str_elem fd_open writable LIB). Qed.

(** What happens instead: the state is the one the body left behind. *)
Theorem C14_exception_leaves_the_state_of_the_body_partial : forall s k v body s1 s2 e, read s k <> None ->
  run (SetItem k v) s = (s1, None) -> run body s1 = (s2, Some e) -> run (With k v body) s = (s2, Some e).
Proof. exact (C14_body parse_float parse_int str_of str_elem fd_open writable LIB). Qed.

(** C15 is false: the entries before the rejected one stay assigned. *)
Theorem C15_load_is_atomic_refuted : ~ (forall files path s' e, run (Load path) (init files) = (s', Some e) ->
  forall k, read s' k = read (init files) k).
Proof. exact (C15_refuted parse_float parse_int str_of str_elem fd_open writable LIB). Qed.

Theorem C15_failed_load_assigns_a_prefix_partial : forall s path s' e, run (Load path) s = (s', Some e) ->
  s' = s \/ exists before k v after, fs s path = Some (FObj (before ++ (k, v) :: after)%list) /\
    run (assignments before) s = (s', None) /\ run (SetItem k v) s' = (s', Some e).
Proof. exact (C15_prefix parse_float parse_int str_of str_elem fd_open writable LIB). Qed.

Theorem C15_unreadable_files_change_nothing : forall s path,
  (fs s path = None -> run (Load path) s = (s, Some FileNotFoundError)) /\
  (fs s path = Some FOther -> run (Load path) s = (s, Some ValueError)) /\
  (fs s path = Some FJson -> run (Load path) s = (s, Some AttributeError)).
Proof. exact (load_unreadable parse_float parse_int str_of str_elem fd_open writable LIB). Qed.

Theorem C15_load_assigns_all_entries_in_order : forall s path items s', fs s path = Some (FObj items) ->
  run (Load path) s = (s', None) -> run (assignments items) s = (s', None).
Proof. exact (C15_complete parse_float parse_int str_of str_elem fd_open writable LIB). Qed.

(** C16: the file is loaded later into any state [s2] that a history can reach
    and in which the saved paths exist.  A path given as a pathlib.Path is
    written as null and comes back as None; everything else is reproduced. *)
Theorem C16_load_after_save_keeps_all_but_pathlib_paths_partial : forall s path s1 s2, reached s -> reached s2 ->
  (forall k l, read s k = Some (VVec l) -> uniform l) ->
  (forall k v, In (k, KPath) documented -> read s k = Some v -> (forall p, v <> VPath p) -> file_exists s2 v) ->
  run (Save path) s = (s1, None) -> fs s2 path = fs s1 path ->
  exists s3, run (Load path) s2 = (s3, None) /\
    forall k, (forall p, read s k = Some (VPath p) -> read s3 k = Some VNone) /\
              ((forall p, read s k <> Some (VPath p)) -> read s3 k = read s k).
Proof.
  intros s path s1 s2 (files & p & o & N & E) (files2 & p2 & o2 & N2 & E2) U P S F.
  apply (C16_load parse_float parse_int str_of str_elem fd_open writable LIB s path s1 s2); try assumption;
    eapply reachable_inv; [exists p, o|exists p2, o2]; eauto.
Qed.

Theorem C16_save_load_round_trip_partial : forall s path s1 s2, reached s -> reached s2 ->
  (forall k l, read s k = Some (VVec l) -> uniform l) ->
  (forall k p, read s k <> Some (VPath p)) ->
  (forall k v, In (k, KPath) documented -> read s k = Some v -> file_exists s2 v) ->
  run (Save path) s = (s1, None) -> fs s2 path = fs s1 path ->
  exists s3, run (Load path) s2 = (s3, None) /\ forall k, read s3 k = read s k.
Proof.
  intros s path s1 s2 (files & p & o & N & E) (files2 & p2 & o2 & N2 & E2).
  apply C16; eapply reachable_inv; [exists p, o|exists p2, o2]; eauto.
Qed.

(** Without the hypothesis on pathlib paths the round trip fails. *)
Theorem C16_save_load_round_trip_refuted : writable "a.json" = true -> ~ (forall s path s1 s2, reached s -> reached s2 ->
  (forall k l, read s k = Some (VVec l) -> uniform l) ->
  (forall k v, In (k, KPath) documented -> read s k = Some v -> file_exists s2 v) ->
  run (Save path) s = (s1, None) -> fs s2 path = fs s1 path ->
  exists s3, run (Load path) s2 = (s3, None) /\ forall k, read s3 k = read s k).
Proof.
  intros W H. set (files := fun p : string => Some FOther).
  destruct (run (SetItem "file.RC_index" (VPath "rc.h5")) (init files)) as [s o] eqn:E.
  assert (Eo : o = None) by (vm_compute in E; congruence). subst o.
  assert (R : reached s) by (exists files, (SetItem "file.RC_index" (VPath "rc.h5")), None; split; [exact I|exact E]).
  destruct (run (Save "a.json") s) as [s1 o] eqn:E1.
  pose proof E1 as E1'. cbn in E1'. unfold save in E1'. rewrite W in E1'. injection E1' as Es1 <-.
  assert (Ds : forall k, read s k = if "file.RC_index" =? k then Some (VPath "rc.h5") else read (init files) k).
  { intros k. assert (Es : s = store (init files) "file.RC_index" (VPath "rc.h5")) by (apply (f_equal fst) in E; symmetry; exact E).
    rewrite Es. destruct (String.eqb_spec "file.RC_index" k) as [<-|Nk]; [apply store_read_same|].
    apply store_read_other; [|congruence]. apply (reachable_inv parse_float parse_int str_of str_elem fd_open writable LIB files). exists Skip, None. split; [exact I|reflexivity]. }
  assert (R1 : reached s1).
  { exists files, (Seq (SetItem "file.RC_index" (VPath "rc.h5")) (Save "a.json")), None. split; [cbn; auto|].
    cbn [M_Config.run]. cbn [M_Config.run] in E. rewrite E. exact E1. }
  assert (U : forall k l, read s k = Some (VVec l) -> uniform l).
  { intros k l. rewrite Ds. destruct (_ =? k); [discriminate|]. rewrite C17_initial. unfold factory, assoc.
    repeat match goal with |- context [String.eqb ?a k] => destruct (String.eqb a k); try discriminate end.
    + intros [= <-]. left. exists [Fin (-29442); Fin (-1501); Fin (47971 # 10)]. reflexivity.
    + intros [= <-]. left. exists [Fin (6378137 # 1000); Fin (6356752 # 1000)]. reflexivity. }
  assert (FE : forall k v, In (k, KPath) documented -> read s k = Some v -> file_exists s1 v).
  { assert (A : forall p, fs s1 p <> None).
    { intros p. rewrite <- Es1. cbn [fs]. unfold set_file. destruct (_ =? p); [discriminate|]. injection E as <-. discriminate. }
    intros k v Kd. rewrite Ds. destruct (_ =? k); [intros [= <-]; apply A|]. rewrite C17_initial. cbn in Kd.
    repeat (destruct Kd as [Kd|Kd]; [try discriminate; injection Kd as <-; cbn; intros [= <-]; apply A|]). destruct Kd. }
  destruct (H s "a.json" s1 s1) as (s3 & L & K); try exact E1; try reflexivity; try assumption.
  specialize (K "file.RC_index"). rewrite Ds in K. cbn [String.eqb] in K.
    assert (L' : read s3 "file.RC_index" = Some VNone).
    { destruct (C16_load_after_save_keeps_all_but_pathlib_paths_partial s "a.json" s1 s1) as (s3' & L2 & K2); try exact E1; try reflexivity; try assumption.
      { intros k v D Rk _. eapply FE; eassumption. }
      rewrite L in L2. injection L2 as <-. apply (K2 "file.RC_index") with "rc.h5". apply Ds. }
    rewrite L' in K. discriminate.
Qed.

(** C17 is false: arrays of the initial configuration and after fullreset are
    the default arrays themselves, so item assignment changes the defaults. *)
Theorem C17_reset_restores_defaults_refuted : ~ (forall files p s o k s', no_update p -> run p (init files) = (s, o) ->
  run (Reset k) s = (s', None) -> read s' k = assoc (factory LIB) k).
Proof. exact (C17_refuted parse_float parse_int str_of str_elem fd_open writable LIB). Qed.

Theorem C17_fullreset_restores_defaults_refuted : ~ (forall files p s o, no_update p -> run p (init files) = (s, o) ->
  exists s', run FullReset s = (s', None) /\ forall k, read s' k = assoc (factory LIB) k).
Proof. exact (C17_fullreset_refuted parse_float parse_int str_of str_elem fd_open writable LIB). Qed.

Theorem C17_reset_restores_defaults_partial : forall files p s o k s', no_inplace p -> no_update p ->
  run p (init files) = (s, o) ->
  run (Reset k) s = (s', None) -> read s' k = assoc (factory LIB) k.
Proof. exact (C17_reset parse_float parse_int str_of str_elem fd_open writable LIB). Qed.

Theorem C17_fullreset_restores_defaults_partial : forall files p s o, no_inplace p -> no_update p ->
  run p (init files) = (s, o) ->
  exists s', run FullReset s = (s', None) /\ forall k, read s' k = assoc (factory LIB) k.
Proof. exact (C17_fullreset parse_float parse_int str_of str_elem fd_open writable LIB). Qed.

(** Arrays stored by reset are copies: modifying them does not reach the defaults. *)
Theorem C17_reset_stores_a_copy : forall files p s o k s1 i x s2 s3, no_inplace p -> no_update p ->
  run p (init files) = (s, o) ->
  run (Reset k) s = (s1, None) -> run (Mutate k i x) s1 = (s2, None) -> run (Reset k) s2 = (s3, None) ->
  read s3 k = assoc (factory LIB) k.
Proof. exact (C17_copy parse_float parse_int str_of str_elem fd_open writable LIB). Qed.

Theorem C17_initial_configuration_is_the_default : forall files k, read (init files) k = assoc (factory LIB) k.
Proof. exact (C17_initial LIB). Qed.

(** A concrete history: nested blocks, a rejected assignment that is caught, a
    save, a reset. *)
Definition files0 (p : string) : option content := if p =? "rc.h5" then Some FOther else None.
Definition example : prog :=
  Seq (With "params.r_surf" (VInt 10)
         (With "params.dipole" (VList [VFloat (Fin 1); VFloat (Fin 2); VFloat (Fin 3)])
            (Try (SetItem "params.cdf_to_mjd" VNone) (SetItem "params.cdf_to_mjd" (VInt 7)))))
  (Seq (SetItem "file.RC_index" (VStr "rc.h5")) (Reset "params.r_cmb")).
Example C10_C17_example_runs : exists s, run example (init files0) = (s, None) /\
  read s "params.r_surf" = Some (VFloat (Fin (63712 # 10))) /\ read s "params.cdf_to_mjd" = Some (VInt 7) /\
  read s "file.RC_index" = Some (VStr "rc.h5") /\ no_inplace example /\ no_update example.
Proof. eexists. split; [reflexivity|]. repeat split. Qed.
Example C13_applies : exists s1 s2 s',
  run (SetItem "params.r_surf" (VFloat (Fin 5))) (init files0) = (s1, None) /\
  run (SetItem "params.r_cmb" (VInt 1)) s1 = (s2, None) /\
  run (With "params.r_surf" (VFloat (Fin 5)) (SetItem "params.r_cmb" (VInt 1))) (init files0) = (s', None) /\
  read s1 "params.r_surf" = Some (VFloat (Fin 5)) /\
  read s' "params.r_surf" = Some (VFloat (Fin (63712 # 10))) /\ read s' "params.r_cmb" = Some (VFloat (Fin 1)).
Proof. eexists. eexists. eexists. split; [reflexivity|]. split; [reflexivity|]. split; [reflexivity|]. repeat split. Qed.
(** The hypotheses of C16 hold, for instance, for the initial configuration
    when the shipped files exist. *)
Example C16_applies : writable "a.json" = true -> let files := fun p : string => Some FOther in exists s1,
  run (Save "a.json") (init files) = (s1, None) /\ reached (init files) /\ reached s1 /\
  (forall k l, read (init files) k = Some (VVec l) -> uniform l) /\
  (forall k p, read (init files) k <> Some (VPath p)) /\
  (forall k v, In (k, KPath) documented -> read (init files) k = Some v -> file_exists s1 v).
Proof.
  intros W files. eexists. split; [cbn; unfold save; rewrite W; reflexivity|].
  assert (R0 : reached (init files)) by (exists files, Skip, None; split; [exact I|reflexivity]).
  split; [exact R0|]. split.
  { exists files, (Save "a.json"), None. split; [exact I|]. cbn. unfold save. rewrite W. reflexivity. }
  split.
  - intros k l. rewrite C17_initial_configuration_is_the_default. unfold factory, assoc.
    repeat match goal with |- context [String.eqb ?a k] => destruct (String.eqb a k); try discriminate end.
    + intros [= <-]. left. exists [Fin (-29442); Fin (-1501); Fin (47971 # 10)]. reflexivity.
    + intros [= <-]. left. exists [Fin (6378137 # 1000); Fin (6356752 # 1000)]. reflexivity.
  - split. { intros k p. rewrite C17_initial_configuration_is_the_default. unfold factory, assoc.
    repeat match goal with |- context [String.eqb ?a k] => destruct (String.eqb a k); try discriminate end. }
    intros k v K. rewrite C17_initial_configuration_is_the_default. cbn in K.
    repeat (destruct K as [K|K]; [try discriminate; injection K as <-; cbn; intros [= <-]; cbn; unfold set_file; destruct (_ =? _); discriminate|]).
    destruct K.
Qed.
(** C11: a path that does not exist and a vector of the wrong length are
    rejected; C14: so the body of a with block can raise. *)
Example C11_C14_apply : exists e s1,
  run (SetItem "file.RC_index" (VStr "missing.h5")) (init files0) = (init files0, Some e) /\
  run (Reset "params.unknown") (init files0) = (init files0, Some KeyError) /\
  read (init files0) "params.r_surf" <> None /\
  run (SetItem "params.r_surf" (VFloat (Fin 5))) (init files0) = (s1, None) /\
  run (SetItem "params.dipole" (VList [VFloat (Fin 1)])) s1 = (s1, Some ValueError).
Proof. eexists. eexists. split; [reflexivity|]. split; [reflexivity|]. split; [discriminate|]. split; reflexivity. Qed.
(** C12: the value of one vector given to the other key *)
Example C12_item_assignment_applies : exists s l,
  run (Seq FullReset (Seq (SetItem "params.dipole" (VList [VInt 1; VInt 2; VInt 3])) (Mutate "params.dipole" 2 (EFloat (Fin 9))))) (init files0) = (s, None) /\
  read s "params.dipole" = Some (VVec l) /\ (1 <? List.length l)%nat = true /\ read s "params.ellipsoid" <> read s "params.dipole".
Proof. eexists. eexists. split; [reflexivity|]. split; [reflexivity|]. split; [reflexivity|]. discriminate. Qed.
(** C12: values of every documented type *)
Example C12_applies : In ("params.dipole", KVector 3) documented /\ well_typed (KVector 3) (VVec [EFloat (Fin 1); EInt 2; EFloat (Fin 3)]) /\
  In ("params.CHAOS_version", KVersion) documented /\ well_typed KVersion (VStr "CHAOS-7.18") /\
  In ("file.RC_index", KPath) documented /\ file_exists (init files0) (VStr "rc.h5").
Proof.
  repeat split; try (cbn; intuition congruence).
  exists "CHAOS-", "7"%char, "1"%char, "8". repeat split.
Qed.
(** a mixed list for a vector key, strings and one-element arrays for numbers,
    and values that cannot be converted *)
Example C11_C12_conversions : parse_float "6.5" = Some (Fin (13 # 2)) -> parse_float "a" = None ->
  let conv := converted parse_float parse_int str_of str_elem (fun z => fd_open z = true) (fun p => fs (init files0) p <> None) in
  conv (KVector 3) (VList [VInt 1; VBool true; VFloat (Fin (1 # 2))]) (VVec [EFloat (Fin 1); EFloat (Fin 1); EFloat (Fin (1 # 2))]) /\
  conv KFloat (VStr "6.5") (VFloat (Fin (13 # 2))) /\ conv KInt (VVec [EFloat (Fin (-7 # 2))]) (VInt (-3)) /\
  (forall c, ~ conv KFloat (VStr "a") c) /\ (forall c, ~ conv KInt (VFloat NaN) c) /\
  rejection KFloat (VStr "a") ValueError /\ rejection KInt VNone TypeError.
Proof.
  intros P1 P2 conv. repeat split.
  - eexists. split; [|reflexivity]. apply vector_list with 2%nat; [reflexivity| |].
    + split.
      * intros v [<-|[<-|[<-|[]]]]; eexists; (split; [reflexivity|lia]).
      * right. eexists. split; [right; right; left; reflexivity|reflexivity].
    + repeat constructor; discriminate.
  - eexists. split; [constructor; exact P1|reflexivity].
  - eexists. split; [do 2 constructor|reflexivity]. split; intros H; cbn; [exfalso; revert H; vm_compute; intros H; apply H; reflexivity|split; [reflexivity|discriminate]].
  - intros c (f & F & _). inversion F; congruence.
  - intros c (z & F & _). inversion F.
Qed.
(** C15: a file with a good and a bad entry, and one with good entries only *)
Definition files1 (p : string) : option content :=
  if p =? "bad.json" then Some (FObj [("params.r_surf", VFloat (Fin 5)); ("params.unknown", VInt 1)])
  else if p =? "good.json" then Some (FObj [("params.r_surf", VFloat (Fin 5)); ("params.cdf_to_mjd", VInt 1)]) else None.
Example C15_applies : exists s e s', run (Load "bad.json") (init files1) = (s, Some e) /\ s <> init files1 /\
  run (Load "good.json") (init files1) = (s', None) /\ read s' "params.cdf_to_mjd" = Some (VInt 1).
Proof.
  eexists. eexists. eexists. split; [reflexivity|]. split; [|split; reflexivity].
  intros E. apply (f_equal (fun s => read s "params.r_surf")) in E. vm_compute in E. discriminate.
Qed.
End Props.

Print Assumptions C10_configuration_is_always_valid.
Print Assumptions C11_rejected_assignment_changes_nothing.
Print Assumptions C11_rejected_reset_changes_nothing.
Print Assumptions C11_unknown_keys_are_rejected.
Print Assumptions C11_unconvertible_values_are_rejected.
Print Assumptions C11_reading_an_unknown_key_raises.
Print Assumptions C12_assignment_stores_the_converted_value.
Print Assumptions C12_assignment_touches_one_key.
Print Assumptions C12_item_assignment_touches_one_key.
Print Assumptions C12_reassigning_what_was_read_changes_nothing.
Print Assumptions C12_typed_values_are_stored_exactly.
Print Assumptions C12_integers_become_floats.
Print Assumptions C12_lists_become_vectors.
Print Assumptions C12_vectors_of_wrong_length_are_rejected.
Print Assumptions C13_context_restores.
Print Assumptions C13_context_exit_succeeds.
Print Assumptions C14_context_restores_on_exception_refuted.
Print Assumptions C14_exception_leaves_the_state_of_the_body_partial.
Print Assumptions C15_load_is_atomic_refuted.
Print Assumptions C15_failed_load_assigns_a_prefix_partial.
Print Assumptions C15_unreadable_files_change_nothing.
Print Assumptions C15_load_assigns_all_entries_in_order.
Print Assumptions C16_load_after_save_keeps_all_but_pathlib_paths_partial.
Print Assumptions C16_save_load_round_trip_partial.
Print Assumptions C16_save_load_round_trip_refuted.
Print Assumptions C17_reset_restores_defaults_refuted.
Print Assumptions C17_fullreset_restores_defaults_refuted.
Print Assumptions C17_reset_restores_defaults_partial.
Print Assumptions C17_fullreset_restores_defaults_partial.
Print Assumptions C17_reset_stores_a_copy.
Print Assumptions C17_initial_configuration_is_the_default.
Print Assumptions C73_mapping_interface_validates_refuted.
