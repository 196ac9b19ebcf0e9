(** The name in the header of an SHC file. *)
From Coq Require Import Reals List Arith ZArith QArith Ascii String Bool Lia.
From Verif Require Import M_Prelude M_Time M_Text M_SHC M_PP M_Model M_SHCModel M_ChaosSHC M_Chaos M_Loaders M_Names P_Text P_Names Spec_Names.
Import ListNotations.
Open Scope nat_scope.

(** text in front of everything *)
Definition shift (h : text) (w : writer) : writer := (h ++ fst w, snd w)%list.
Lemma emit_shift h w t : emit (shift h w) t = shift h (emit w t).
Proof. destruct w as [o [e|]]; unfold emit, shift; cbn [fst snd]; [reflexivity|]. rewrite app_assoc. reflexivity. Qed.
Lemma raise_shift h w e : raise_ (shift h w) e = shift h (raise_ w e).
Proof. destruct w as [o [x|]]; reflexivity. Qed.
Lemma fold_shift {A} h (f : writer -> A -> writer) l : (forall w a, f (shift h w) a = shift h (f w a)) -> forall w, fold_left f l (shift h w) = shift h (fold_left f l w).
Proof. intros H. induction l as [|a l IH]; intros w; [reflexivity|]. cbn [fold_left]. rewrite H. apply IH. Qed.

Lemma write_shift h c time lp nmin nmax rows cols first at0 : write_shc (h ++ c) time lp nmin nmax rows cols first at0 = shift h (write_shc c time lp nmin nmax rows cols first at0).
Proof.
  unfold write_shc.
  change (emit ([], None) (h ++ c)%list) with (shift h (emit ([], None) c)).
  assert (T : forall w, match time with TScalar _ => raise_ (shift h w) TypeError
      | TVec l => fold_left (fun w t => match mjd_to_dyear t (Some lp) with Err e => raise_ w e | Ok y => emit w (txt " " ++ fmt_q y)%list end) l (shift h w) end =
    shift h (match time with TScalar _ => raise_ w TypeError
      | TVec l => fold_left (fun w t => match mjd_to_dyear t (Some lp) with Err e => raise_ w e | Ok y => emit w (txt " " ++ fmt_q y)%list end) l w end)).
  { intros w. destruct time; [apply raise_shift|]. apply fold_shift. intros w' t. destruct (mjd_to_dyear t (Some lp)); [apply emit_shift|apply raise_shift]. }
  rewrite emit_shift, T, emit_shift.
  match goal with |- snd (fold_left ?f _ (0, shift h ?w)) = _ => generalize w; intros w0;
    assert (G : forall l k z, fold_left f l (k, shift h z) = (fst (fold_left f l (k, z)), shift h (snd (fold_left f l (k, z))))) end.
  { induction l as [|[n m] l IH]; intros k z; [reflexivity|]. cbn [fold_left]. rewrite emit_shift.
    destruct (k <? cols); rewrite ?emit_shift, ?raise_shift, ?emit_shift; apply IH. }
  rewrite G. reflexivity.
Qed.

(** The call with header h: nothing written, or h in front of what is written
    without a header. *)
Lemma save_header now fs time cq order path nmin nmax lp :
  (exists e, forall h, save_shcfile now fs time cq order (Some path) nmin nmax lp h = (fs, Err e)) \/
  (exists t r, forall h, save_shcfile now fs time cq order (Some path) nmin nmax lp h = (write_file fs path (match h with None => t | Some h => (h ++ t)%list end), r)).
Proof.
  unfold save_shcfile.
  set (n1 := match nmin with None => 1%Z | Some n => n end). set (n2 := match nmax with None => _ | Some n => n end).
  destruct (n2 <? n1)%Z; [left; exists ValueError; reflexivity|].
  destruct (n1 <? 0)%Z; [left; exists ValueError; reflexivity|]. right.
  set (lpv := match lp with None => true | Some b => b end). set (o := match order with None => 1%Z | Some o => o end).
  set (size := match time with TScalar _ => 1%nat | TVec l => List.length l end).
  match goal with |- context [write_shc (comment_text _ now lpv n1 n2 size o) time lpv ?A ?B ?C ?D ?E ?F] =>
    set (w := write_shc (comment_text [] now lpv n1 n2 size o) time lpv A B C D E F);
    assert (G : forall h, write_shc (comment_text h now lpv n1 n2 size o) time lpv A B C D E F = shift h w) end.
  { intros h. unfold w. rewrite <- write_shift. reflexivity. }
  exists (fst w), (match snd w with None => Ok tt | Some x => Err x end). intros h. rewrite G. destruct w as [t e]. unfold shift. cbn [fst snd].
  destruct h; reflexivity.
Qed.

(** Lines of comment without \n and \r. *)
Definition one_line (l : text) : Prop := ~ In "010"%char l /\ ~ In "013"%char l.
Definition good_header (h : text) : Prop := exists ls, h = hash_lines ls /\ List.Forall one_line ls.

Lemma text_mode_app h t : ~ In "013"%char h -> text_mode (h ++ t) = (h ++ text_mode t)%list.
Proof.
  induction h as [|c r IH]; [reflexivity|]. intros H. cbn [app text_mode]. destruct (Ascii.eqb_spec c "013") as [-> |N]; [exfalso; apply H; left; reflexivity|].
  f_equal. apply IH. intros K. apply H. right. exact K.
Qed.
Lemma lines_acc_line w l t : ~ In "010"%char l -> lines_acc w (l ++ "010"%char :: t) = (rev w ++ l)%list :: lines_acc [] t.
Proof.
  revert w. induction l as [|c r IH]; intros w H; cbn [app lines_acc].
  - rewrite Ascii.eqb_refl, app_nil_r. reflexivity.
  - destruct (Ascii.eqb_spec c "010") as [-> |N]; [exfalso; apply H; left; reflexivity|].
    rewrite IH by (intros K; apply H; right; exact K). cbn [rev]. rewrite <- app_assoc. reflexivity.
Qed.
Lemma lines_line l t : ~ In "010"%char l -> lines (l ++ nl ++ t) = l :: lines t.
Proof. intros H. exact (lines_acc_line [] l t H). Qed.

Lemma load_skip l t lp : ~ In "010"%char l -> load_shcfile ((txt "# " ++ l) ++ nl ++ t)%list lp None = load_shcfile t lp None.
Proof.
  intros H. unfold load_shcfile. rewrite lines_line; [reflexivity|]. intros [K|[K|K]]; [discriminate|discriminate|exact (H K)].
Qed.
Lemma load_header h t lp : good_header h -> load_shcfile (text_mode (h ++ t)) lp None = load_shcfile (text_mode t) lp None.
Proof.
  intros (ls & -> & H). 
  assert (N : ~ In "013"%char (hash_lines ls)).
  { unfold hash_lines. rewrite in_flat_map. intros (l & Hl & I). rewrite List.Forall_forall in H. destruct (H l Hl) as [_ K].
    apply in_app_or in I. destruct I as [[I|[I|[]]]|I]; [discriminate|discriminate|]. apply in_app_or in I. destruct I as [I|[I|[]]]; [exact (K I)|discriminate]. }
  rewrite text_mode_app by exact N. clear N. induction H as [|l ls [H _] _ IH]; [reflexivity|].
  unfold hash_lines in *. cbn [flat_map]. rewrite <- IH, <- !app_assoc. rewrite (app_assoc (txt "# ") l). apply load_skip, H.
Qed.

Lemma from_header lsq h t lp src : good_header h -> from_shc lsq (text_mode (h ++ t)) lp src = from_shc lsq (text_mode t) lp src.
Proof. intros H. unfold from_shc. rewrite load_header by exact H. reflexivity. Qed.
Lemma load_chaos_header lsq h t lp : good_header h -> load_chaos_shc lsq (text_mode (h ++ t)) lp = load_chaos_shc lsq (text_mode t) lp.
Proof. intros H. unfold load_chaos_shc. rewrite from_header by exact H. reflexivity. Qed.

Definition same_file (path : string) (a b : file_system * result unit) : Prop :=
  snd a = snd b /\
  (forall lp, load_shc_path (fst a) path lp None = load_shc_path (fst b) path lp None) /\
  (forall lsq n lp src, from_shc_file lsq (fst a) path n lp src = from_shc_file lsq (fst b) path n lp src) /\
  (forall lsq n lp, load_CHAOS_shc_path lsq (fst a) path n lp = load_CHAOS_shc_path lsq (fst b) path n lp).

Lemma same_refl path a : same_file path a a.
Proof. repeat split; reflexivity. Qed.

Lemma save_same now fs time cq order path nmin nmax lp h h' : good_header h -> good_header h' ->
  same_file path (save_shcfile now fs time cq order (Some path) nmin nmax lp (Some h)) (save_shcfile now fs time cq order (Some path) nmin nmax lp (Some h')).
Proof.
  intros H H'. destruct (save_header now fs time cq order path nmin nmax lp) as [(e & E)|(t & r & E)]; rewrite !E; [apply same_refl|].
  unfold same_file, load_shc_path, from_shc_file, load_named, load_CHAOS_shc_path, write_file. cbn [fst snd]. rewrite String.eqb_refl.
  split; [reflexivity|]. split; [|split]; intros.
  - rewrite !load_header by assumption. reflexivity.
  - rewrite !from_header by assumption. reflexivity.
  - rewrite !load_chaos_header by assumption. reflexivity.
Qed.

Lemma name_header name : one_line name -> good_header (txt "# " ++ name ++ nl).
Proof. intros H. exists [name]. split; [unfold hash_lines; cbn [flat_map]; rewrite app_nil_r; reflexivity|constructor; [exact H|constructor]]. Qed.

Lemma to_shc_same now fs name name' m tq cq path lp nmin nmax : one_line name -> one_line name' ->
  same_file path (to_shc now fs name m tq cq path lp nmin nmax None) (to_shc now fs name' m tq cq path lp nmin nmax None).
Proof. intros H H'. unfold to_shc. apply save_same; apply name_header; assumption. Qed.


(** The headers of CHAOS.save_shcfile *)
Lemma one_line_app l m : one_line l -> one_line m -> one_line (l ++ m).
Proof. intros [A B] [C D]. split; intros H; apply in_app_or in H; tauto. Qed.
Lemma one_line_print z : one_line (print_Z z).
Proof. pose proof (P_Text.print_Z_plain z) as [_ P]. rewrite List.Forall_forall in P. split; intros H; specialize (P _ H); discriminate P. Qed.
Ltac onel := repeat (apply one_line_app || apply one_line_print); try assumption; split; cbn; intuition discriminate.
Lemma tdep_good name a b c d e : one_line name -> good_header (tdep_header name a b c d e).
Proof. intros H. eexists; split; [reflexivity|]. constructor; [exact H|]. repeat (constructor; [onel|]). constructor. Qed.
Lemma static_good name a b : one_line name -> good_header (static_header name a b).
Proof. intros H. eexists; split; [reflexivity|]. constructor; [exact H|]. repeat (constructor; [onel|]). constructor. Qed.

Lemma chaos_same now fs name name' c tq cq path model lp : one_line name -> one_line name' ->
  same_file path (chaos_save_shc now fs name c tq cq path model lp) (chaos_save_shc now fs name' c tq cq path model lp).
Proof.
  intros H H'. unfold chaos_save_shc.
  destruct (_ =? _)%string; [|destruct (_ =? _)%string; [|apply same_refl]].
  - destruct (ch_tdep c) as [m|]; [|apply same_refl]. destruct (m_nmax m); [|apply same_refl]. destruct (b_order (m_base m)); [|apply same_refl].
    destruct (b_breaks (m_base m)); [|apply same_refl]. unfold to_shc. apply save_same; apply tdep_good; assumption.
  - destruct (ch_static c) as [m|]; [|apply same_refl]. destruct (ch_tdep c) as [td|]; [|apply same_refl].
    destruct (m_nmax td); [|apply same_refl]. destruct (m_nmax m); [|apply same_refl]. unfold to_shc. apply save_same; apply static_good; assumption.
Qed.

(** A name with a line break *)
Lemma values_kept comment ls v d : exists d', fold_left (load_line comment) ls (Some v, d) = (Some v, d').
Proof.
  revert d. induction ls as [|l r IH]; intros d; [exists d; reflexivity|]. cbn [fold_left]. unfold load_line at 2. destruct (is_comment comment l); apply IH.
Qed.
Lemma load_broken t lp : load_shcfile (txt "# x" ++ nl ++ txt "1" ++ nl ++ t)%list lp None = Err KeyError.
Proof.
  unfold load_shcfile. rewrite (lines_line (txt "# x")) by (cbn; intuition discriminate). rewrite (lines_line (txt "1")) by (cbn; intuition discriminate).
  cbn [fold_left]. change (load_line ["#"%char] (None, []) (txt "# x")) with (@None (list Z), @nil Q).
  replace (load_line ["#"%char] (None, []) (txt "1")) with (Some [1%Z], @nil Q) by (vm_compute; reflexivity).
  destruct (values_kept ["#"%char] (lines t) [1%Z] []) as [d' ->]. reflexivity.
Qed.
Lemma broken_name br now fs name m tq cq path lp nmin nmax fs' : br = "010"%char \/ br = "013"%char ->
  to_shc now fs name m tq cq path lp nmin nmax None = (fs', Ok tt) ->
  exists fs'', to_shc now fs ("x"%char :: br :: txt "1") m tq cq path lp nmin nmax None = (fs'', Ok tt) /\
    forall leap, load_shc_path fs'' path leap None = Err KeyError.
Proof.
  intros B H. unfold to_shc in *.
  match type of H with save_shcfile _ _ ?a ?b ?c _ ?d ?e ?f _ = _ => destruct (save_header now fs a b c path d e f) as [(x & E)|(t & r & E)] end; rewrite E in H; [discriminate|].
  assert (r = Ok tt) by (injection H; auto). subst r. rewrite E. eexists. split; [reflexivity|]. intros leap.
  unfold load_shc_path, write_file. rewrite String.eqb_refl. destruct B as [-> | ->].
  - change (text_mode (txt "# " ++ ("x"%char :: "010"%char :: txt "1") ++ nl ++ t)%list) with (txt "# x" ++ nl ++ txt "1" ++ nl ++ text_mode t)%list || idtac.
    match goal with |- context [text_mode ?a] => replace (text_mode a) with (txt "# x" ++ nl ++ txt "1" ++ nl ++ text_mode t)%list by (cbn -[text_mode]; reflexivity || (unfold txt, nl; cbn; reflexivity)) end.
    rewrite load_broken. reflexivity.
  - match goal with |- context [text_mode ?a] => replace (text_mode a) with (txt "# x" ++ nl ++ txt "1" ++ nl ++ text_mode t)%list by (unfold txt, nl; cbn; reflexivity) end.
    rewrite load_broken. reflexivity.
Qed.

(** ** Reading text *)
Lemma text_mode_spec : forall raw, text_of raw (text_mode raw).
Proof.
  assert (G : forall n raw, List.length raw <= n -> text_of raw (text_mode raw)).
  { induction n as [|n IH]; intros raw H; (destruct raw as [|c r]; [constructor|]); [cbn in H; lia|]. cbn [List.length] in H. cbn [text_mode].
    destruct (Ascii.eqb_spec c "013") as [-> |N].
    - destruct r as [|d r']; [constructor; [discriminate|constructor]|]. destruct (Ascii.eqb_spec d "010") as [-> |K].
      + constructor. apply IH. cbn in H. lia.
      + constructor; [intros r'' X; congruence|]. apply IH. cbn in H |- *. lia.
    - constructor; [exact N|]. apply IH. lia. }
  intros raw. exact (G _ raw (le_n _)).
Qed.
Lemma text_of_fun raw t : text_of raw t -> text_mode raw = t.
Proof.
  induction 1 as [|r t H IH|r t N H IH|c r t N H IH]; [reflexivity| | |]; cbn [text_mode].
  - cbn. rewrite <- IH. reflexivity.
  - rewrite Ascii.eqb_refl. f_equal. destruct r as [|d r']; [exact IH|]. destruct (Ascii.eqb_spec d "010") as [-> |K]; [exfalso; exact (N r' eq_refl)|exact IH].
  - destruct (Ascii.eqb_spec c "013"); [contradiction|]. rewrite IH. reflexivity.
Qed.

(** A loaded model: the name and what the file contains *)
Lemma load_named_ok default load fs p name n m :
  load_named default load fs p name = Ok (n, m) <->
  (exists raw t, fs p = Some raw /\ text_of raw t /\ load t = Ok m) /\ n = match name with None => default (txt p) | Some a => name_str a end.
Proof.
  rewrite load_named_spec. split.
  - destruct (fs p) as [raw|]; [|discriminate]. destruct (load (text_mode raw)) as [m'|e] eqn:L; [|discriminate]. intros X.
    assert (m' = m) by congruence. split; [|congruence]. exists raw, (text_mode raw). split; [reflexivity|]. split; [apply text_mode_spec|congruence].
  - intros [(raw & t & -> & T & L) ->]. rewrite (text_of_fun _ _ T), L. reflexivity.
Qed.
Lemma stem_of p d f s : in_directory p d f -> file_stem f s -> stem p = s.
Proof. intros D S. unfold stem. rewrite (base_spec _ _ _ D). apply stem_spec; [apply D|exact S]. Qed.

Lemma chaos_init_kinds_shc lsq t lp c : load_chaos_shc lsq t lp = Ok c ->
  (exists m, ch_tdep c = Some m /\ ch_static c = None) \/ (exists m, ch_tdep c = None /\ ch_static c = Some m).
Proof.
  unfold load_chaos_shc. destruct (from_shc lsq t _ None) as [m|]; [|discriminate]. cbn [bind].
  destruct (b_pieces (m_base m)); [|discriminate]. destruct (b_order (m_base m)); [|discriminate]. destruct (b_breaks (m_base m)) as [x|]; [|discriminate].
  destruct (b_coeffs (m_base m)) as [k|]; [|discriminate]. destruct (_ && _)%bool; intros H.
  - right. destruct x as [|b x]; [discriminate|]. unfold chaos_init in H. cbn [bind option_map] in H.
    assert (K := f_equal (fun r => match r with Ok x => x | Err _ => c end) H). cbn beta iota in K. subst c. eexists. split; reflexivity.
  - left. unfold chaos_init in H. cbn [bind option_map] in H.
    assert (K := f_equal (fun r => match r with Ok x => x | Err _ => c end) H). cbn beta iota in K. subst c. eexists. split; reflexivity.
Qed.
