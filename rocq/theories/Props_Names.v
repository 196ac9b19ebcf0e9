(** C151, C152: names of models, missing files, line ends; the name in the
    header of an SHC file. *)
From Coq Require Import Reals List Arith ZArith QArith Ascii String Bool Lia Lra.
From Verif Require Import M_Prelude M_Time M_Text M_SHC M_PP M_Model M_SHCModel M_ChaosSHC M_Chaos M_Loaders M_Names Spec_Names Spec_Loaders W_Loaders P_Names P_Names2 Props_Loaders.
Import ListNotations.
Open Scope nat_scope.

(** ** C151 *)
(** Every path has a directory, a file name and a name without extension. *)
Theorem C151_every_path : forall p, exists d f s, in_directory p d f /\ file_stem f s.
Proof. intros p. destruct (base_exists p) as (d & f & H). destruct (stem_exists f) as [s S]. exists d, f, s. exact (conj H S). Qed.

(** Default name: the file name without extension. *)
Theorem C151_default_name : forall lsq fs path d f s n m, in_directory (txt path) d f -> file_stem f s ->
  (forall leap src, from_shc_file lsq fs path None leap src = Ok (n, m) <->
    (exists raw t, fs path = Some raw /\ text_of raw t /\ from_shc lsq t leap src = Ok m) /\ n = s) /\
  (load_CovObs_file fs path None = Ok (n, m) <-> (exists raw t, fs path = Some raw /\ text_of raw t /\ load_CovObs_txtfile t = Ok m) /\ n = s) /\
  (load_gufm1_file fs path None = Ok (n, m) <-> (exists raw t, fs path = Some raw /\ text_of raw t /\ load_gufm1_txtfile t = Ok m) /\ n = s) /\
  (load_IGRF_file fs path None = Ok (n, m) <-> (exists raw t, fs path = Some raw /\ text_of raw t /\ load_IGRF_txtfile t = Ok m) /\ n = s).
Proof.
  intros lsq fs path d f s n m D S. rewrite <- (stem_of _ _ _ _ D S). split; [|split; [|split]]; intros; apply load_named_ok.
Qed.
(** CALS7K: the file name with extension *)
Theorem C151_default_name_CALS7K : forall fs path d f n m, in_directory (txt path) d f ->
  (load_CALS7K_file fs path None = Ok (n, m) <-> (exists raw t, fs path = Some raw /\ text_of raw t /\ load_CALS7K_txtfile t = Ok m) /\ n = f).
Proof. intros fs path d f n m D. rewrite <- (base_spec _ _ _ D). apply load_named_ok. Qed.
(** A given name, a text or an object printed as s *)
Theorem C151_given_name : forall lsq fs path s a n m, a = NText s \/ a = NObject s ->
  (forall leap src, from_shc_file lsq fs path (Some a) leap src = Ok (n, m) <->
    (exists raw t, fs path = Some raw /\ text_of raw t /\ from_shc lsq t leap src = Ok m) /\ n = s) /\
  (load_CovObs_file fs path (Some a) = Ok (n, m) <-> (exists raw t, fs path = Some raw /\ text_of raw t /\ load_CovObs_txtfile t = Ok m) /\ n = s) /\
  (load_gufm1_file fs path (Some a) = Ok (n, m) <-> (exists raw t, fs path = Some raw /\ text_of raw t /\ load_gufm1_txtfile t = Ok m) /\ n = s) /\
  (load_CALS7K_file fs path (Some a) = Ok (n, m) <-> (exists raw t, fs path = Some raw /\ text_of raw t /\ load_CALS7K_txtfile t = Ok m) /\ n = s) /\
  (load_IGRF_file fs path (Some a) = Ok (n, m) <-> (exists raw t, fs path = Some raw /\ text_of raw t /\ load_IGRF_txtfile t = Ok m) /\ n = s).
Proof.
  intros lsq fs path s a n m A. assert (S : s = name_str a) by (destruct A as [-> | ->]; reflexivity). subst s.
  split; [|split; [|split; [|split]]]; intros; apply load_named_ok.
Qed.

(** A missing file is reported, whatever the name. *)
Theorem C151_missing_file : forall lsq fs path, fs path = None ->
  (forall name leap src, from_shc_file lsq fs path name leap src = Err FileNotFoundError) /\
  (forall name, load_CovObs_file fs path name = Err FileNotFoundError) /\
  (forall name, load_gufm1_file fs path name = Err FileNotFoundError) /\
  (forall name, load_CALS7K_file fs path name = Err FileNotFoundError) /\
  (forall name, load_IGRF_file fs path name = Err FileNotFoundError) /\
  (forall leap comment, load_shc_path fs path leap comment = Err FileNotFoundError) /\
  (forall name leap, load_CHAOS_shc_path lsq fs path name leap = Err FileNotFoundError).
Proof.
  intros lsq fs path H.
  unfold from_shc_file, load_CovObs_file, load_gufm1_file, load_CALS7K_file, load_IGRF_file, load_named, load_shc_path, load_CHAOS_shc_path. rewrite H.
  repeat split.
Qed.

(** An existing file that cannot be used: the exception of the file, whatever the name. *)
Theorem C151_unusable_file : forall lsq fs path raw t, fs path = Some raw -> text_of raw t ->
  (forall name leap src e, from_shc lsq t leap src = Err e -> from_shc_file lsq fs path name leap src = Err e) /\
  (forall name e, load_CovObs_txtfile t = Err e -> load_CovObs_file fs path name = Err e) /\
  (forall name e, load_gufm1_txtfile t = Err e -> load_gufm1_file fs path name = Err e) /\
  (forall name e, load_CALS7K_txtfile t = Err e -> load_CALS7K_file fs path name = Err e) /\
  (forall name e, load_IGRF_txtfile t = Err e -> load_IGRF_file fs path name = Err e) /\
  (forall leap comment e, load_shcfile t leap comment = Err e -> load_shc_path fs path leap comment = Err e).
Proof.
  intros lsq fs path raw t F T. apply text_of_fun in T.
  unfold from_shc_file, load_CovObs_file, load_gufm1_file, load_CALS7K_file, load_IGRF_file, load_named, load_shc_path. rewrite F, T.
  split; [|split; [|split; [|split; [|split]]]]; intros; match goal with H : _ = Err _ |- _ => rewrite H end; reflexivity.
Qed.

(** load_shcfile: the parameter 'SHC' is the file name. *)
Theorem C151_parameter_SHC : forall fs path d f leap comment s k, in_directory (txt path) d f ->
  (load_shc_path fs path leap comment = Ok (s, k) <-> (exists raw t, fs path = Some raw /\ text_of raw t /\ load_shcfile t leap comment = Ok s) /\ k = f).
Proof.
  intros fs path d f leap comment s k D. rewrite <- (base_spec _ _ _ D). unfold load_shc_path. split.
  - destruct (fs path) as [raw|]; [|discriminate]. destruct (load_shcfile (text_mode raw) leap comment) as [x|e] eqn:L; [|discriminate]. intros X. cbn [bind] in X.
    assert (x = s) by congruence. split; [|congruence]. exists raw, (text_mode raw). split; [reflexivity|]. split; [apply text_mode_spec|congruence].
  - intros [(raw & t & -> & T & L) ->]. rewrite (text_of_fun _ _ T), L. reflexivity.
Qed.

(** CHAOS objects: the default name, the names of the two parts *)
Theorem C151_chaos_names : forall tdep static,
  chaos_names None tdep static = chaos_names (Some (NText (txt "CHAOS"))) tdep static /\
  forall s, chaos_names (Some (NText s)) tdep static = Ok (s, if tdep then Some (s ++ txt "_tdep")%list else None, if static then Some (s ++ txt "_static")%list else None).
Proof. intros. split; reflexivity. Qed.
(** A name that is no text: accepted for models (C151_given_name), but an error
    for CHAOS objects with an internal part. *)
Theorem C151_chaos_names_refuted : forall s, chaos_names (Some (NObject s)) true false = Err TypeError /\ chaos_names (Some (NObject s)) false true = Err TypeError /\
  chaos_names (Some (NObject s)) true true = Err TypeError /\ chaos_names (Some (NObject s)) false false = Ok (s, None, None).
Proof. repeat split. Qed.

(** load_CHAOS_shcfile and CHAOS.from_shc: the name given, or that of the file *)
Theorem C151_chaos_from_shc : forall lsq fs path d f s name leap raw t c, in_directory (txt path) d f -> file_stem f s ->
  fs path = Some raw -> text_of raw t -> load_chaos_shc lsq t leap = Ok c ->
  let n := match name with None => s | Some (NText x) | Some (NObject x) => x end in
  load_CHAOS_shc_path lsq fs path name leap =
    Ok (c, (n, match ch_tdep c with Some _ => Some (n ++ txt "_tdep")%list | None => None end,
               match ch_static c with Some _ => Some (n ++ txt "_static")%list | None => None end)).
Proof.
  intros lsq fs path d f s name leap raw t c D S F T L n. unfold load_CHAOS_shc_path. rewrite F, (text_of_fun _ _ T).
  assert (L' : load_chaos_shc lsq t (Some (match leap with None => false | Some b => b end)) = Ok c) by exact L. rewrite L'. cbn [bind].
  rewrite (stem_of _ _ _ _ D S).
  assert (N : match name with None => s | Some a => name_str a end = n) by (unfold n; destruct name as [[x|x]|]; reflexivity). rewrite N.
  destruct (ch_tdep c), (ch_static c); reflexivity.
Qed.
Theorem C151_chaos_from_shc_parts : forall lsq t leap c, load_chaos_shc lsq t leap = Ok c ->
  (ch_tdep c <> None /\ ch_static c = None) \/ (ch_tdep c = None /\ ch_static c <> None).
Proof.
  intros lsq t leap c H. destruct (chaos_init_kinds_shc _ _ _ _ H) as [(m & A & B)|(m & A & B)]; rewrite A, B; [left|right]; split; congruence.
Qed.

(** Line ends: files with the same text load alike. *)
Theorem C151_line_ends : forall lsq fs fs' path raw raw' t, fs path = Some raw -> fs' path = Some raw' -> text_of raw t -> text_of raw' t ->
  (forall name leap src, from_shc_file lsq fs path name leap src = from_shc_file lsq fs' path name leap src) /\
  (forall name, load_CovObs_file fs path name = load_CovObs_file fs' path name) /\
  (forall name, load_gufm1_file fs path name = load_gufm1_file fs' path name) /\
  (forall name, load_CALS7K_file fs path name = load_CALS7K_file fs' path name) /\
  (forall name, load_IGRF_file fs path name = load_IGRF_file fs' path name) /\
  (forall leap comment, load_shc_path fs path leap comment = load_shc_path fs' path leap comment) /\
  (forall name leap, load_CHAOS_shc_path lsq fs path name leap = load_CHAOS_shc_path lsq fs' path name leap).
Proof.
  intros lsq fs fs' path raw raw' t F F' T T'. apply text_of_fun in T, T'.
  unfold from_shc_file, load_CovObs_file, load_gufm1_file, load_CALS7K_file, load_IGRF_file, load_named, load_shc_path, load_CHAOS_shc_path. rewrite F, F', T, T'.
  repeat split.
Qed.

Example C151_paths :
  in_directory (txt "data/CHAOS-7.8.shc") (txt "data/") (txt "CHAOS-7.8.shc") /\ file_stem (txt "CHAOS-7.8.shc") (txt "CHAOS-7.8") /\
  in_directory (txt "IGRF") [] (txt "IGRF") /\ file_stem (txt "IGRF") (txt "IGRF") /\ file_stem (txt ".shc") (txt ".shc").
Proof.
  split; [split; [reflexivity|]; split; [right; exists (txt "data"); reflexivity|cbn; intuition discriminate]|].
  split; [left; exists (txt "shc"); split; [reflexivity|]; split; [cbn; intuition discriminate|]; exists "C"%char; split; [left; reflexivity|discriminate]|].
  split; [split; [reflexivity|]; split; [left; reflexivity|cbn; intuition discriminate]|].
  split; right; (split; [reflexivity|]); intros u v E; [exfalso|].
  - assert (I : In "."%char (txt "IGRF")) by (rewrite E; apply in_or_app; right; left; reflexivity). cbn in I. intuition discriminate.
  - intros Hv c Hc. destruct u as [|a [|b u]]; [destruct Hc| |].
    + cbn in E. assert (a = "."%char) by congruence. destruct Hc as [<-|[]]. assumption.
    + exfalso. assert (L := f_equal (@List.length ascii) E). cbn in L. rewrite app_length in L. cbn in L.
      destruct u as [|x u]; cbn in E; [|].
      * discriminate.
      * destruct u as [|y u]; cbn in E; [discriminate|]. cbn in L. assert (K := f_equal (skipn 4) E). cbn in K. symmetry in K. apply app_eq_nil in K. destruct K as [_ K]. discriminate.
Qed.
Definition windows (ls : list string) : text := flat_map (fun l => txt l ++ ["013"; "010"]%char)%list ls.
(** A COV-OBS file with line ends \r\n *)
Definition w_disk : file_system := fun p => if (p =? "a/COV.txt")%string then Some (windows ["COV-OBS"; "1 8 2 2000 2010.5 2020 2030"; "-1.5e2 2 3"; " 4 5 6"]%string) else None.
Example C151_loads : exists m, load_CovObs_file w_disk "a/COV.txt"%string None = Ok (txt "COV", m) /\ load_CovObs_txtfile covobs_text = Ok m /\
  load_CovObs_file w_disk "a/COV.tx"%string None = Err FileNotFoundError.
Proof.
  destruct (Props_Loaders.C68_covobs_keeps_every_coefficient_partial covobs_text 1 2 covobs_years covobs_data ltac:(lia) ltac:(lia) covobs_example) as (m & M).
  destruct M as [M _]. exists m. split; [|split; [exact M|reflexivity]].
  unfold load_CovObs_file, load_named. replace (w_disk "a/COV.txt"%string) with (Some (windows ["COV-OBS"; "1 8 2 2000 2010.5 2020 2030"; "-1.5e2 2 3"; " 4 5 6"]%string)) by reflexivity.
  replace (text_mode _) with covobs_text by (vm_compute; reflexivity). rewrite M. reflexivity.
Qed.

(** ** C152 *)
(** Two names without line breaks: files that load alike *)
Theorem C152_model_name : forall lsq now fs name name' m tq cq path leap nmin nmax,
  (~ In "010"%char name /\ ~ In "013"%char name) -> (~ In "010"%char name' /\ ~ In "013"%char name') ->
  let a := to_shc now fs name m tq cq path leap nmin nmax None in
  let b := to_shc now fs name' m tq cq path leap nmin nmax None in
  snd a = snd b /\
  (forall lp, load_shc_path (fst a) path lp None = load_shc_path (fst b) path lp None) /\
  (forall n lp src, from_shc_file lsq (fst a) path n lp src = from_shc_file lsq (fst b) path n lp src) /\
  (forall n lp, load_CHAOS_shc_path lsq (fst a) path n lp = load_CHAOS_shc_path lsq (fst b) path n lp).
Proof.
  intros lsq now fs name name' m tq cq path leap nmin nmax H H' a b.
  destruct (to_shc_same now fs name name' m tq cq path leap nmin nmax H H') as (A & B & C & D). repeat split; intros; auto.
Qed.
Theorem C152_chaos_name : forall lsq now fs name name' c tq cq path model leap,
  (~ In "010"%char name /\ ~ In "013"%char name) -> (~ In "010"%char name' /\ ~ In "013"%char name') ->
  let a := chaos_save_shc now fs name c tq cq path model leap in
  let b := chaos_save_shc now fs name' c tq cq path model leap in
  snd a = snd b /\
  (forall lp, load_shc_path (fst a) path lp None = load_shc_path (fst b) path lp None) /\
  (forall n lp src, from_shc_file lsq (fst a) path n lp src = from_shc_file lsq (fst b) path n lp src) /\
  (forall n lp, load_CHAOS_shc_path lsq (fst a) path n lp = load_CHAOS_shc_path lsq (fst b) path n lp).
Proof.
  intros lsq now fs name name' c tq cq path model leap H H' a b.
  destruct (chaos_same now fs name name' c tq cq path model leap H H') as (A & B & C & D). repeat split; intros; auto.
Qed.
(** A name with a line break: the file is written without an error and cannot
    be read. *)
Theorem C152_line_break_refuted : forall br now fs name m tq cq path leap nmin nmax fs', br = "010"%char \/ br = "013"%char ->
  to_shc now fs name m tq cq path leap nmin nmax None = (fs', Ok tt) ->
  exists fs'', to_shc now fs ("x"%char :: br :: txt "1") m tq cq path leap nmin nmax None = (fs'', Ok tt) /\
    forall lp, load_shc_path fs'' path lp None = Err KeyError.
Proof. exact broken_name. Qed.

Definition w_model : field_model := model_init (Some [0; 366]%R) (Some 1%Z) (Some (mkc3 1 1 3 (fun _ _ j => INR j))) (Some "internal"%string).
Example C152_applies : exists fs', to_shc (txt "now") (fun _ => None) (txt "my model") w_model [0]%Q (mkcoefs false 1 3 (fun _ j => inject_Z (Z.of_nat j))) "f.shc" None None None None = (fs', Ok tt) /\
  exists s, load_shc_path fs' "f.shc" None None = Ok (s, txt "f.shc") /\ l_params s = [1; 1; 1; 1; 0]%Z.
Proof.
  match goal with |- exists _, ?T = _ /\ _ => exists (fst T); assert (K : snd T = Ok tt) by (vm_compute; reflexivity); split end.
  - rewrite <- K. apply surjective_pairing.
  - eexists. split; vm_compute; reflexivity.
Qed.

Print Assumptions C151_every_path.
Print Assumptions C151_default_name.
Print Assumptions C151_default_name_CALS7K.
Print Assumptions C151_given_name.
Print Assumptions C151_missing_file.
Print Assumptions C151_unusable_file.
Print Assumptions C151_parameter_SHC.
Print Assumptions C151_chaos_names.
Print Assumptions C151_chaos_names_refuted.
Print Assumptions C151_chaos_from_shc.
Print Assumptions C151_chaos_from_shc_parts.
Print Assumptions C151_line_ends.
Print Assumptions C152_model_name.
Print Assumptions C152_chaos_name.
Print Assumptions C152_line_break_refuted.
