(** Names of models, missing files, and the name in the header of SHC files. *)
From Coq Require Import List Arith ZArith QArith Ascii String Bool Lia.
From Verif Require Import M_Prelude M_Text M_SHC M_Model M_SHCModel M_ChaosSHC M_Chaos M_Loaders M_Names Spec_SHC Spec_SHCRead Spec_Names.
Import ListNotations.
Open Scope nat_scope.

Lemma rfind_none c s : ~ In c s <-> rfind c s = None.
Proof.
  induction s as [|x r IH]; cbn [rfind In]; [tauto|].
  destruct (rfind c r) as [i|].
  - split; intros H; [|discriminate]. exfalso. assert (K : ~ In c r) by tauto. apply IH in K. discriminate.
  - assert (K : ~ In c r) by (apply IH; reflexivity). destruct (Ascii.eqb_spec x c) as [E|E]; split; intros H; try discriminate; try reflexivity.
    + exfalso. tauto.
    + tauto.
Qed.
Lemma rfind_app c s t : ~ In c t -> rfind c (s ++ c :: t) = Some (List.length s).
Proof.
  intros H. apply rfind_none in H. induction s as [|x r IH]; cbn [app rfind List.length]; [rewrite H, Ascii.eqb_refl; reflexivity|].
  change (r ++ c :: t) with (r ++ c :: t)%list. rewrite IH. reflexivity.
Qed.
Lemma skipn_len {A} (s t : list A) : skipn (List.length s) (s ++ t) = t.
Proof. induction s; [reflexivity|assumption]. Qed.
Lemma firstn_len {A} (s t : list A) : firstn (List.length s) (s ++ t) = s.
Proof. induction s; [reflexivity|cbn; congruence]. Qed.

Lemma base_spec p d f : in_directory p d f -> basename p = f.
Proof.
  intros (E & D & F). unfold basename, after_last. destruct D as [-> |[d' ->]].
  - subst p. cbn [app]. apply rfind_none in F. rewrite F. reflexivity.
  - subst p. rewrite <- app_assoc. cbn [app]. rewrite rfind_app by exact F.
    replace (S (List.length d')) with (List.length (d' ++ ["/"%char])) by (rewrite app_length; cbn; lia).
    change (d' ++ "/"%char :: f) with (d' ++ ["/"%char] ++ f)%list. rewrite app_assoc. apply skipn_len.
Qed.
Lemma base_exists p : exists d f, in_directory p d f.
Proof.
  induction p as [|x r (d & f & E & D & F)]; [exists [], []; repeat split; [left; reflexivity|tauto]|].
  destruct D as [-> |[d' ->]].
  - destruct (Ascii.eqb_spec x "/") as [-> |N].
    + exists ["/"%char], f. cbn [app] in *. split; [rewrite E; reflexivity|]; split; [right; exists []; reflexivity|exact F].
    + exists [], (x :: f). cbn [app] in *. split; [rewrite E; reflexivity|]; split; [left; reflexivity|]. intros [K|K]; [congruence|tauto].
  - exists (x :: d' ++ ["/"%char])%list, f. (split; [rewrite E; reflexivity|]); split; [right; exists (x :: d'); reflexivity|exact F].
Qed.

Lemma existsb_not_dot l : existsb (fun c => negb (Ascii.eqb c ".")) l = true <-> exists c, In c l /\ c <> "."%char.
Proof.
  rewrite existsb_exists. split; intros (c & H & K); exists c; split; auto.
  - destruct (Ascii.eqb_spec c "."); [discriminate|assumption].
  - destruct (Ascii.eqb_spec c "."); [contradiction|reflexivity].
Qed.
Lemma stem_spec f s : ~ In "/"%char f -> file_stem f s -> without_extension f = s.
Proof.
  intros N H. unfold without_extension. replace (after_last "/" f) with 0 by (unfold after_last; apply rfind_none in N; rewrite N; reflexivity).
  destruct H as [(e & E & HE & c & Hc & Hd)|[-> H]].
  - subst f. unfold after_last. rewrite rfind_app by exact HE. cbn [Nat.ltb Nat.leb]. rewrite Nat.sub_0_r. cbn [skipn].
    replace (S (List.length s) - 1) with (List.length s) by lia. rewrite firstn_len.
    rewrite (proj2 (existsb_not_dot s)) by (exists c; split; assumption). reflexivity.
  - unfold after_last. destruct (rfind "." f) as [i|] eqn:R; [|reflexivity].
    change (0 <? S i) with true. cbv iota. rewrite Nat.sub_0_r. cbn [skipn]. replace (S i - 1) with i by lia.
    destruct (existsb _ (firstn i f)) eqn:X; [|reflexivity]. exfalso.
    apply existsb_not_dot in X. destruct X as (c & Hc & Hd).
    assert (G : exists u v, f = u ++ "."%char :: v /\ ~ In "."%char v).
    { assert (I : In "."%char f). { destruct (in_dec ascii_dec "."%char f) as [I|I]; [exact I|]. apply rfind_none in I. congruence. }
      clear - I. induction f as [|x r IH]; [destruct I|]. destruct (in_dec ascii_dec "."%char r) as [J|J].
      - destruct (IH J) as (u & v & -> & Hv). exists (x :: u), v. split; [reflexivity|exact Hv].
      - destruct I as [-> |I]; [|contradiction]. exists [], r. split; [reflexivity|exact J]. }
    destruct G as (u & v & E & Hv). rewrite E, rfind_app in R by exact Hv. injection R as <-. rewrite E, firstn_len in Hc.
    exact (Hd (H u v E Hv c Hc)).
Qed.
Lemma stem_exists f : exists s, file_stem f s.
Proof.
  destruct (in_dec ascii_dec "."%char f) as [I|I].
  - assert (G : exists u v, f = u ++ "."%char :: v /\ ~ In "."%char v).
    { clear - I. induction f as [|x r IH]; [destruct I|]. destruct (in_dec ascii_dec "."%char r) as [J|J].
      - destruct (IH J) as (u & v & -> & Hv). exists (x :: u), v. split; [reflexivity|exact Hv].
      - destruct I as [-> |I]; [|contradiction]. exists [], r. split; [reflexivity|exact J]. }
    destruct G as (u & v & E & Hv). destruct (existsb (fun c => negb (Ascii.eqb c ".")) u) eqn:X.
    + apply existsb_not_dot in X. exists u. left. exists v. repeat split; assumption.
    + exists f. right. split; [reflexivity|]. intros u' v' E' Hv' c Hc.
      assert (u' = u) as ->.
      { pose proof (rfind_app _ u v Hv) as A. pose proof (rfind_app _ u' v' Hv') as B. rewrite <- E in A. rewrite <- E' in B. rewrite A in B.
        injection B as L. rewrite <- (firstn_len u ("."%char :: v)), <- E, L, E'. symmetry. apply firstn_len. }
      destruct (ascii_dec c ".") as [K|K]; [exact K|]. exfalso. assert (Y : existsb (fun c => negb (Ascii.eqb c ".")) u = true) by (apply existsb_not_dot; exists c; split; assumption).
      congruence.
  - exists f. right. split; [reflexivity|]. intros u v E. exfalso. apply I. rewrite E. apply in_or_app. right. left. reflexivity.
Qed.

(** ** Loaders *)
Lemma load_named_spec default load fs p name :
  load_named default load fs p name =
  match fs p with
  | None => Err FileNotFoundError
  | Some content => match load (text_mode content) with Ok m => Ok (match name with None => default (txt p) | Some n => name_str n end, m) | Err e => Err e end
  end.
Proof. unfold load_named. destruct (fs p); [|reflexivity]. destruct (load _); reflexivity. Qed.

Lemma text_mode_id s : ~ In "013"%char s -> text_mode s = s.
Proof.
  induction s as [|c r IH]; [reflexivity|]. intros H. cbn [text_mode]. destruct (Ascii.eqb_spec c "013") as [-> |N]; [exfalso; apply H; left; reflexivity|].
  rewrite IH; [reflexivity|]. intros K. apply H. right. exact K.
Qed.
