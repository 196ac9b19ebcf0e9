(** SHC files as read (C137) and cut off (C138). *)
From Coq Require Import Reals List Arith ZArith QArith Qreals Ascii String Bool Lia.
From Verif Require Import M_Prelude M_Time M_ND M_Text M_SHC M_PP M_Model M_SHCModel Spec_Text Spec_SHC Spec_SHCRead P_Text P_TextSpec P_SHC3 P_SHCRead.
Import ListNotations.

(** The comment mark and the leap-year flag for the arguments. *)
Definition mark (comment : option (list ascii)) : list ascii := match comment with None => ["#"%char] | Some c => c end.
Definition leap (leap_year : option bool) : option bool := Some (match leap_year with None => true | Some b => b end).

(** ** C137 *)
Theorem C137_no_parameter_line : forall content lp c ls, a_mark (mark c) -> lines_of content ls -> List.Forall (comment_line (mark c)) ls ->
  load_shcfile content lp c = Err OtherError.
Proof. exact shc_all_comments. Qed.
(** Every other file has parameters and a table. *)
Theorem C137_every_file_has_a_reading : forall c ls, a_mark (mark c) ->
  List.Forall (comment_line (mark c)) ls \/ exists ps d, shc_file (mark c) ls ps d.
Proof. intros c ls M. destruct (file_fold (mark c) M ls) as [[_ F]|(ps & d & _ & S)]; [left; exact F|right; exists ps, d; exact S]. Qed.

(** N times, then rows of two labels and N values. *)
Theorem C137_contents : forall content lp c ls ps d N, a_mark (mark c) -> lines_of content ls -> shc_file (mark c) ls ps d ->
  nth_error ps 2 = Some N -> (0 <= N)%Z -> let n := Z.to_nat N in (n <= List.length d)%nat -> ((List.length d - n) mod (n + 2) = 0)%nat ->
  exists s, load_shcfile content lp c = Ok s /\ l_params s = ps /\
    Forall2 (fun q t => exists q', (q' == q)%Q /\ dyear_to_mjd q' (leap lp) = Ok t) (firstn n d) (l_time s) /\
    List.length (l_rows s) = ((List.length d - n) / (n + 2))%nat /\
    forall i, (i < List.length (l_rows s))%nat -> List.length (nth i (l_rows s) []) = n /\
      forall j, (j < n)%nat -> (nth j (nth i (l_rows s) []) 0 == nth (n + i * (n + 2) + 2 + j) d 0)%Q.
Proof.
  intros content lp c ls ps d N M L S EN HN n H1 H2. destruct (shc_read content lp c ls ps d M L S) as [_ H]. destruct (H N EN) as (_ & _ & _ & K & _).
  exact (K HN H1 H2).
Qed.
Theorem C137_errors : forall content lp c ls ps d, a_mark (mark c) -> lines_of content ls -> shc_file (mark c) ls ps d ->
  ((List.length ps < 3)%nat -> load_shcfile content lp c = Err KeyError) /\
  (forall N, nth_error ps 2 = Some N -> let n := Z.to_nat N in
     ((N <= -2)%Z -> load_shcfile content lp c = Err ValueError) /\
     ((0 <= N)%Z -> (n <= List.length d)%nat -> ((List.length d - n) mod (n + 2) <> 0)%nat -> load_shcfile content lp c = Err ValueError)).
Proof.
  intros content lp c ls ps d M L S. destruct (shc_read content lp c ls ps d M L S) as [A H]. split; [exact A|]. intros N EN n. destruct (H N EN) as (B & _ & C & _ & _).
  split; assumption.
Qed.
(** Fewer numbers than times, or N = -1: no error. *)
Theorem C137_missing_times_are_not_reported : forall content lp c ls ps d N, a_mark (mark c) -> lines_of content ls -> shc_file (mark c) ls ps d ->
  nth_error ps 2 = Some N -> (N = -1 \/ Z.of_nat (List.length d) < N)%Z -> exists s, load_shcfile content lp c = Ok s.
Proof.
  intros content lp c ls ps d N M L S EN K. destruct (shc_read content lp c ls ps d M L S) as [_ H]. destruct (H N EN) as (_ & B & _ & _ & C).
  destruct K as [K|K]; [destruct (B K) as (s & E & _)|destruct (C ltac:(lia) ltac:(lia)) as (s & E & _)]; exists s; exact E.
Qed.

Definition example_lines : list (list ascii) := [txt "# a"; txt " 1 1 2 1 0"; txt "  2000.0 2001.5"; txt "1 0 -5.25 3e1"].
Example C137_hypotheses : a_mark (mark None) /\ lines_of (flat_map (fun l => l ++ [newline])%list example_lines) example_lines /\
  exists d, shc_file (mark None) example_lines [1; 1; 2; 1; 0]%Z d /\ List.length d = 6%nat.
Proof.
  split; [exact hash_mark|]. split; [apply lines_spec; reflexivity|].
  destruct (file_fold (mark None) hash_mark example_lines) as [[K _]|(ps & d & K & S)]; [discriminate|].
  vm_compute in K. injection K as <- <-. eexists. split; [exact S|reflexivity].
Qed.

(** ** C138 *)
(** Cut anywhere: parameters, times and all values but the last one are those
    of the complete file. *)
Theorem C138_cut_file_keeps_all_but_the_last_value : forall cut rest lp s s' N,
  load_shcfile (cut ++ rest) lp None = Ok s -> load_shcfile cut lp None = Ok s' ->
  nth_error (l_params s') 2 = Some N -> (0 <= N)%Z -> l_rows s' <> [] -> let n := Z.to_nat N in
  l_params s = l_params s' /\ l_time s = l_time s' /\ (List.length (l_rows s') <= List.length (l_rows s))%nat /\
  forall i, (i < List.length (l_rows s'))%nat -> List.length (nth i (l_rows s') []) = n /\ List.length (nth i (l_rows s) []) = n /\
    forall j, (j < n)%nat -> (i + 1 < List.length (l_rows s') \/ j + 1 < n)%nat ->
      nth j (nth i (l_rows s') []) 0%Q = nth j (nth i (l_rows s) []) 0%Q.
Proof. exact cut_anywhere. Qed.
(** Cut after a line: all values. *)
Theorem C138_cut_after_a_line : forall a b lp c s s' N, load_shcfile (a ++ newline :: b) lp c = Ok s -> load_shcfile (a ++ [newline]) lp c = Ok s' ->
  nth_error (l_params s') 2 = Some N -> (0 <= N)%Z -> l_rows s' <> [] ->
  l_params s = l_params s' /\ l_time s = l_time s' /\ exists more, l_rows s = (l_rows s' ++ more)%list.
Proof. exact cut_at_line_end. Qed.

Definition cut_coefs : coefs := mkcoefs false 2 8 (fun i j => (inject_Z (Z.of_nat (i + j)) - (1 # 8))%Q).
(** A saved file of degrees 1 and 2, cut after the seventh row and cut within
    the last number: both load without an error. *)
Theorem C138_cut_files_may_load : exists now fs l fs' content k s s1 k2 s2,
  save_shcfile now fs (TVec l) cut_coefs None (Some "x.shc"%string) None None None None = (fs', Ok tt) /\ fs' "x.shc"%string = Some content /\
  load_shcfile content None None = Ok s /\ List.length (l_rows s) = 8%nat /\
  (k < List.length content)%nat /\ load_shcfile (firstn k content) None None = Ok s1 /\ List.length (l_rows s1) = 7%nat /\
  (k2 < List.length content)%nat /\ load_shcfile (firstn k2 content) None None = Ok s2 /\ List.length (l_rows s2) = 8%nat /\
  ~ (nth 1 (nth 7 (l_rows s2) []) 0 == nth 1 (nth 7 (l_rows s) []) 0)%Q.
Proof.
  assert (E : let '(fs', r) := save_shcfile (txt "2024") (fun _ => None) (TVec [0%Q; 100.25%Q]) cut_coefs None (Some "x.shc"%string) None None None None in
    r = Ok tt /\ exists content, fs' "x.shc"%string = Some content /\
    let n := List.length content in
    match load_shcfile content None None, load_shcfile (firstn (n - 42) content) None None, load_shcfile (firstn (n - 7) content) None None with
    | Ok s, Ok s1, Ok s2 => (n <> 0 /\ List.length (l_rows s) = 8 /\ List.length (l_rows s1) = 7 /\ List.length (l_rows s2) = 8)%nat /\
        Qeq_bool (nth 1 (nth 7 (l_rows s2) []) 0%Q) (nth 1 (nth 7 (l_rows s) []) 0%Q) = false
    | _, _, _ => False
    end).
  { destruct (save_shcfile (txt "2024") (fun _ => None) (TVec [0%Q; 100.25%Q]) cut_coefs None (Some "x.shc"%string) None None None None) as [fs' r] eqn:E.
    vm_compute in E. injection E as <- <-. split; [reflexivity|]. eexists. split; [vm_compute; reflexivity|]. vm_compute. repeat split. discriminate. }
  destruct (save_shcfile (txt "2024") (fun _ => None) (TVec [0%Q; 100.25%Q]) cut_coefs None (Some "x.shc"%string) None None None None) as [fs' r] eqn:ES.
  destruct E as (-> & content & F & E). cbn zeta in E.
  destruct (load_shcfile content None None) as [s|] eqn:L0; [|contradiction].
  destruct (load_shcfile (firstn (List.length content - 42) content) None None) as [s1|] eqn:L1; [|contradiction].
  destruct (load_shcfile (firstn (List.length content - 7) content) None None) as [s2|] eqn:L2; [|contradiction].
  destruct E as ((A & B & C & D) & X).
  exists (txt "2024"), (fun _ => None), [0%Q; 100.25%Q], fs', content, (List.length content - 42)%nat, s, s1, (List.length content - 7)%nat, s2.
  repeat split; try assumption; try lia. intros Q. apply Qeq_eq_bool in Q. congruence.
Qed.

(** Building the model: from degree nmin > 1 on, missing rows are noticed
    unless a single one is left; that one is used for all coefficients. *)
Theorem C138_missing_rows_are_noticed : forall lsq content lp source s nmin nmax N order step more,
  load_shcfile content (Some (match lp with None => false | Some b => b end)) None = Ok s -> l_params s = nmin :: nmax :: N :: order :: step :: more ->
  l_time s <> [] -> (1 < nmin <= nmax)%Z -> (Z.of_nat (List.length (l_rows s)) <> (nmax + 1) * (nmax + 1) - nmin * nmin)%Z -> List.length (l_rows s) <> 1%nat ->
  from_shc lsq content lp source = Err ValueError.
Proof.
  intros lsq content lp source s nmin nmax N order step more L P T Hn HR H1. unfold from_shc. cbv zeta. rewrite L. cbn [bind]. rewrite P.
  destruct (l_time s) as [|t0 ts]; [contradiction|]. cbn [map].
  assert (PD : shc_padded s nmin nmax = Err ValueError).
  { unfold shc_padded. destruct (Z.ltb_spec 1 nmin); [|lia]. destruct (Z.ltb_spec (nmax * (nmax + 2)) 0); [nia|].
    destruct (Nat.eqb_spec (Z.to_nat (nmax * (nmax + 2)) - Z.to_nat (nmin * nmin - 1)) (List.length (l_rows s))) as [E|E]; [exfalso; nia|].
    destruct (Nat.eqb_spec (List.length (l_rows s)) 1); [contradiction|]. reflexivity. }
  rewrite PD. destruct (order =? 1)%Z; reflexivity.
Qed.
Theorem C138_single_row_is_spread : forall lsq content lp source s nmin nmax N step more,
  load_shcfile content (Some (match lp with None => false | Some b => b end)) None = Ok s -> l_params s = nmin :: nmax :: N :: 1%Z :: step :: more ->
  l_time s <> [] -> (1 < nmin <= nmax)%Z -> List.length (l_rows s) = 1%nat ->
  exists m c, from_shc lsq content lp source = Ok m /\ b_coeffs (m_base m) = Some c /\ c_d c = Z.to_nat (nmax * (nmax + 2)) /\
    forall i j, (Z.to_nat (nmin * nmin - 1) <= j)%nat -> c_v c 0%nat i j = Q2R (nth i (nth 0 (l_rows s) []) 0%Q).
Proof.
  intros lsq content lp source s nmin nmax N step more L P T Hn H1. unfold from_shc. cbv zeta. rewrite L. cbn [bind]. rewrite P.
  destruct (l_time s) as [|t0 ts]; [contradiction|]. cbn [map]. change (1 =? 1)%Z with true. cbn iota.
  assert (PD : shc_padded s nmin nmax = Ok (Z.to_nat (nmax * (nmax + 2)), fun i j => if (j <? Z.to_nat (nmin * nmin - 1))%nat then 0%R else Q2R (nth i (nth 0 (l_rows s) []) 0%Q))).
  { unfold shc_padded. destruct (Z.ltb_spec 1 nmin); [|lia]. destruct (Z.ltb_spec (nmax * (nmax + 2)) 0); [nia|].
    destruct (Nat.eqb_spec (Z.to_nat (nmax * (nmax + 2)) - Z.to_nat (nmin * nmin - 1)) (List.length (l_rows s))) as [E|E]; [exfalso; rewrite H1 in E; nia|].
    rewrite H1. reflexivity. }
  rewrite PD. cbn [bind]. eexists. eexists. split; [reflexivity|]. split; [reflexivity|]. split; [reflexivity|].
  intros i j Hj. cbn [c_v take_last c_k Z.of_nat Nat.ltb]. unfold take_last. cbn -[Nat.ltb Z.to_nat]. destruct (Nat.ltb_spec j (Z.to_nat (nmin * nmin - 1))); [lia|reflexivity].
Qed.
(** From degree one on, missing rows are not noticed. *)
Theorem C138_missing_rows_from_degree_one : forall lsq content lp source s nmin nmax N step more,
  load_shcfile content (Some (match lp with None => false | Some b => b end)) None = Ok s -> l_params s = nmin :: nmax :: N :: 1%Z :: step :: more ->
  l_time s <> [] -> (nmin <= 1)%Z ->
  exists m c, from_shc lsq content lp source = Ok m /\ b_coeffs (m_base m) = Some c /\ c_d c = List.length (l_rows s).
Proof.
  intros lsq content lp source s nmin nmax N step more L P T Hn. unfold from_shc. cbv zeta. rewrite L. cbn [bind]. rewrite P.
  destruct (l_time s) as [|t0 ts]; [contradiction|]. cbn [map]. change (1 =? 1)%Z with true. cbn iota.
  unfold shc_padded. destruct (Z.ltb_spec 1 nmin); [lia|]. cbn [bind]. eexists. eexists. split; [reflexivity|]. split; [reflexivity|]. reflexivity.
Qed.
Example C138_hypotheses : exists cut rest s s',
  load_shcfile (cut ++ rest) None None = Ok s /\ load_shcfile cut None None = Ok s' /\ nth_error (l_params s') 2 = Some 2%Z /\ l_rows s' <> [] /\ rest <> [].
Proof.
  exists (flat_map (fun l => l ++ [newline])%list example_lines ++ txt "1 1 7 8")%list, (txt "9
")%list. eexists. eexists. split; [vm_compute; reflexivity|]. split; [vm_compute; reflexivity|]. split; [reflexivity|]. split; discriminate.
Qed.
Example C138_missing_rows : exists content s, load_shcfile content (Some false) None = Ok s /\ l_params s = [2; 2; 2; 1; 0]%Z /\ l_time s <> [] /\ List.length (l_rows s) = 4%nat.
Proof.
  exists (txt "2 2 2 1 0
2000 2001
2 0 1 2
2 1 3 4
2 -1 5 6
2 2 7 8
"). eexists. split; [vm_compute; reflexivity|]. split; [reflexivity|]. split; [discriminate|reflexivity].
Qed.

Print Assumptions C137_no_parameter_line.
Print Assumptions C137_every_file_has_a_reading.
Print Assumptions C137_contents.
Print Assumptions C137_errors.
Print Assumptions C137_missing_times_are_not_reported.
Print Assumptions C138_cut_file_keeps_all_but_the_last_value.
Print Assumptions C138_cut_after_a_line.
Print Assumptions C138_cut_files_may_load.
Print Assumptions C138_missing_rows_are_noticed.
Print Assumptions C138_single_row_is_spread.
Print Assumptions C138_missing_rows_from_degree_one.
