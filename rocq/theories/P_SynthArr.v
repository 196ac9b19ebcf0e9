(** The array model agrees with the one-point kernel at every index. *)
From Coq Require Import Reals List Arith ZArith String Bool Lia Lra.
From Verif Require Import M_Prelude M_ND P_ND Spec_Field M_Legendre M_Synth M_SynthArr P_Synth.
Import ListNotations.
Open Scope R_scope.

Lemma crow_length c x : List.length (crow c x) = cdim c.
Proof. unfold crow. now rewrite map_length, seq_length. Qed.

Lemma getcA_crow c i x :
  match getcA c i with
  | Ok f => getc (crow c x) i = Ok (f x)
  | Err e => e = IndexError /\ getc (crow c x) i = Err IndexError
  end.
Proof.
  unfold getcA. destruct (Nat.ltb_spec i (cdim c)) as [H|H].
  - unfold getc, crow. rewrite nth_error_map, nth_error_nth' with (d := 0%nat) by (rewrite seq_length; lia).
    cbn. rewrite seq_nth by lia. reflexivity.
  - split; [reflexivity|]. apply getc_err. rewrite crow_length. lia.
Qed.

Lemma for_rangeM_sim {A B} (T : nat -> A -> B -> Prop) a b (f : A -> nat -> result A) (g : B -> nat -> result B) x y :
  (a <= b)%nat -> T a x y ->
  (forall i x y, (a <= i < b)%nat -> T i x y ->
     (exists e, f x i = Err e /\ g y i = Err e) \/ exists x' y', f x i = Ok x' /\ g y i = Ok y' /\ T (S i) x' y') ->
  (exists e, for_rangeM a b f x = Err e /\ for_rangeM a b g y = Err e) \/
  exists x' y', for_rangeM a b f x = Ok x' /\ for_rangeM a b g y = Ok y' /\ T b x' y'.
Proof.
  intros Hab H0 Hs. induction b as [|b IH].
  - replace a with 0%nat in * by lia. rewrite !for_rangeM_nil. right; eauto 6.
  - destruct (Nat.eq_dec a (S b)) as [->|Hne].
    + rewrite !for_rangeM_nil. right; eauto 6.
    + rewrite !for_rangeM_snoc by lia.
      destruct IH as [(e & E1 & E2)|(x' & y' & E1 & E2 & E3)]; [lia|intros; apply Hs; [lia|assumption]| |].
      * rewrite E1, E2. left; exists e; split; reflexivity.
      * rewrite E1, E2. cbn [bind]. apply Hs; [lia|exact E3].
Qed.

Lemma for_rangeM_sim_empty {A B} (T : A -> B -> Prop) a b (f : A -> nat -> result A) (g : B -> nat -> result B) x y :
  (b <= a)%nat -> T x y ->
  exists x' y', for_rangeM a b f x = Ok x' /\ for_rangeM a b g y = Ok y' /\ T x' y'.
Proof. intros H. unfold for_rangeM. replace (b - a)%nat with 0%nat by lia. cbn. eauto 6. Qed.

Section AtIndex.
Variables (s : src) (r : nd R) (P : list nat -> tab) (sinth : list nat -> R) (poles : bool) (theta phi : nd R)
          (c : carr) (mmax : nat) (x : list nat).

Let pole := (poles && is_pole (bread theta x))%bool.

Definition arel (y : aacc) (z : acc) : Prop :=
  A_num y = a_num z /\ A_rn y x = a_rn z /\ A_br y x = a_br z /\ A_bt y x = a_bt z /\ A_bp y x = a_bp z.

Lemma div_PA_at n m : div_PA P sinth poles theta n m x = div_P (P x) (sinth x) pole n m.
Proof. unfold div_PA, div_P, pole. destruct poles; [|reflexivity]. destruct (is_pole _); reflexivity. Qed.

Lemma synth_mA_at n y z m : arel y z ->
  (exists e, synth_mA s P sinth poles theta phi c n y m = Err e /\
             synth_m s (P x) (sinth x) pole (radians (bread phi x)) (crow c x) n z m = Err e) \/
  exists y' z', synth_mA s P sinth poles theta phi c n y m = Ok y' /\
             synth_m s (P x) (sinth x) pole (radians (bread phi x)) (crow c x) n z m = Ok z' /\ arel y' z'.
Proof.
  intros (E0 & E1 & E2 & E3 & E4). unfold synth_mA, synth_m.
  pose proof (getcA_crow c (A_num y) x) as G1. pose proof (getcA_crow c (A_num y + 1) x) as G2. rewrite E0 in G1, G2. rewrite E0.
  destruct (getcA c (a_num z)) as [cg|e]; [|destruct G1 as [-> ->]; left; eexists; split; reflexivity].
  rewrite G1. cbn [bind].
  destruct (getcA c (a_num z + 1)) as [ch|e]; [|destruct G2 as [-> ->]; left; eexists; split; reflexivity].
  rewrite G2. cbn [bind]. right. do 2 eexists. split; [reflexivity|]. split; [reflexivity|].
  unfold arel. cbn [A_num A_rn A_br A_bt A_bp a_num a_rn a_br a_bt a_bp].
  rewrite div_PA_at, E1, E2, E3, E4. repeat split; try reflexivity.
Qed.

Lemma synth_nA_at y z n : arel y z ->
  (exists e, synth_nA s r P sinth poles theta phi c mmax y n = Err e /\
             synth_n s (bread r x) (P x) (sinth x) pole (radians (bread phi x)) (crow c x) mmax z n = Err e) \/
  exists y' z', synth_nA s r P sinth poles theta phi c mmax y n = Ok y' /\
             synth_n s (bread r x) (P x) (sinth x) pole (radians (bread phi x)) (crow c x) mmax z n = Ok z' /\ arel y' z'.
Proof.
  intros (E0 & E1 & E2 & E3 & E4). unfold synth_nA, synth_n.
  pose proof (getcA_crow c (A_num y) x) as G1. rewrite E0 in G1. rewrite E0.
  destruct (getcA c (a_num z)) as [c0|e]; [|destruct G1 as [-> ->]; left; eexists; split; reflexivity].
  rewrite G1. cbn [bind].
  match goal with |- context [for_rangeM 1 ?b ?f (mkaacc ?q1 ?q2 ?q3 ?q4 ?q5)] =>
    match goal with |- context [for_rangeM 1 b ?g (mkacc ?p1 ?p2 ?p3 ?p4 ?p5)] =>
      destruct (for_rangeM_sim (fun _ => arel) 1 b f g (mkaacc q1 q2 q3 q4 q5) (mkacc p1 p2 p3 p4 p5))
        as [(e & F1 & F2)|(y' & z' & F1 & F2 & H0 & H1 & H2 & H3 & H4)]
    end end.
  - lia.
  - unfold arel. cbn. rewrite ?E1, ?E2, ?E3, ?E4. repeat split; try reflexivity.
  - intros i y1 z1 _ H. apply synth_mA_at, H.
  - rewrite F1, F2. left; eexists; split; reflexivity.
  - rewrite F1, F2. cbn [bind]. right. do 2 eexists. split; [reflexivity|]. split; [reflexivity|].
    unfold arel. cbn. rewrite H0, H1, H2, H3, H4. repeat split; try reflexivity.
Qed.

Lemma synth_loop_at nmin nmax y z : arel y z ->
  let F := for_rangeM nmin (nmax + 1) (synth_nA s r P sinth poles theta phi c mmax) y in
  let G := for_rangeM nmin (nmax + 1) (synth_n s (bread r x) (P x) (sinth x) pole (radians (bread phi x)) (crow c x) mmax) z in
  (exists e, F = Err e /\ G = Err e) \/ exists y' z', F = Ok y' /\ G = Ok z' /\ arel y' z'.
Proof.
  intros H F G. destruct (Nat.le_gt_cases nmin (nmax + 1)) as [L|L].
  - apply (for_rangeM_sim (fun _ => arel)); [exact L|exact H|]. intros i y1 z1 _ H1. apply synth_nA_at, H1.
  - right. apply for_rangeM_sim_empty; [lia|exact H].
Qed.
End AtIndex.

(** Arrays of the grid option. *)
Definition gridded (grid : bool) (theta phi : nd R) : result (nd R * nd R) :=
  if grid then bind (expand_before_last phi) (fun p => Ok (expand_last theta, p)) else Ok (theta, phi).

(** Everything the array function does, seen from one index. *)
Record decoded := mkdec { e_poles : bool; e_s : src; e_nmin : nat; e_nmax : nat; e_mmax : nat;
                          e_theta : nd R; e_phi : nd R; e_sh : list nat }.

Definition decode (c : carr) (radius theta phi : nd R) (nmin nmax mmax : option Z)
    (source : option string) (grid : bool) : result decoded :=
  bind (check_poles (elems theta)) (fun poles =>
  let nmin := orZ nmin 1 in
  if (nmin <=? 0)%Z then Err AssertionError else
  let '(nmax, mmax) := infer_nmax (Z.of_nat (cdim c)) nmin nmax mmax in
  if (nmax <? nmin)%Z then Err ValueError else
  bind (gridded grid theta phi) (fun tp =>
  bind (broadcast [sh radius; sh (fst tp); sh (snd tp); csh c]) (fun gsh =>
  bind (parse_source source) (fun s =>
  Ok (mkdec poles s (Z.to_nat nmin) (Z.to_nat nmax) (Z.to_nat mmax) (fst tp) (snd tp) gsh))))).

Lemma decode_bounds c radius theta phi nmin nmax mmax source grid d :
  decode c radius theta phi nmin nmax mmax source grid = Ok d -> (1 <= e_nmin d <= e_nmax d)%nat.
Proof.
  unfold decode. destruct (check_poles _); [|discriminate]. cbn [bind].
  destruct (Z.leb_spec (orZ nmin 1) 0) as [|H1]; [discriminate|].
  destruct (infer_nmax _ _ _ _) as [n m]. destruct (Z.ltb_spec n (orZ nmin 1)) as [|H2]; [discriminate|].
  destruct (gridded grid theta phi); [|discriminate]. cbn [bind].
  destruct (broadcast _); [|discriminate]. cbn [bind].
  destruct (parse_source source); [|discriminate]. cbn [bind]. intros H; injection H as <-. cbn. lia.
Qed.

Definition run_point (oob a : R) (c : carr) (radius : nd R) (d : decoded) (x : list nat) : result (R * R * R) :=
  synth_point oob (e_s d) a (e_nmin d) (e_nmax d) (e_mmax d) (e_poles d) (crow c x)
    (bread radius x) (bread (e_theta d) x) (bread (e_phi d) x).

Lemma synth_values_decode oob a c radius theta phi nmin nmax mmax source grid :
  match decode c radius theta phi nmin nmax mmax source grid with
  | Err e => synth_values oob a c radius theta phi nmin nmax mmax source grid = Err e
  | Ok d =>
      match synth_values oob a c radius theta phi nmin nmax mmax source grid with
      | Ok F => f_sh F = e_sh d /\ forall x, run_point oob a c radius d x = Ok (f_r F x, f_t F x, f_p F x)
      | Err e => forall x, run_point oob a c radius d x = Err e
      end
  end.
Proof.
  destruct (decode c radius theta phi nmin nmax mmax source grid) as [d|e] eqn:D.
  - pose proof (decode_bounds _ _ _ _ _ _ _ _ _ _ D) as Hb. revert D Hb. unfold decode, synth_values.
    destruct (check_poles (elems theta)) as [poles|]; [|discriminate]. cbn [bind].
    destruct (orZ nmin 1 <=? 0)%Z; [discriminate|].
    destruct (infer_nmax _ _ _ _) as [n m]. destruct (n <? orZ nmin 1)%Z; [discriminate|].
    fold (gridded grid theta phi). destruct (gridded grid theta phi) as [[th ph]|]; [|discriminate]. cbn [bind fst snd sh].
    destruct (broadcast _) as [gsh|]; [|discriminate]. cbn [bind].
    destruct (parse_source source) as [s|]; [|discriminate]. cbn [bind]. intros D; injection D as <-.
    cbn [e_nmin e_nmax e_mmax e_poles e_s e_theta e_phi e_sh]. intros Hb.
    set (N := Z.to_nat n) in *. set (K := Z.to_nat (orZ nmin 1)) in *.
    unfold legendreA. unfold legendre_poly at 1. destruct (Nat.eqb_spec N 0); [lia|]. cbn [bind].
    set (P := fun x => match legendre_poly oob N (bread th x) with Ok P => P | Err _ => fun _ _ => 0 end).
    set (rr0 := mknd (sh radius) (fun x => at_ radius x / a)).
    match goal with |- context [for_rangeM K (N + 1) ?f ?y0] => set (FF := for_rangeM K (N+1) f y0) end.
    assert (HK : forall x,
      (exists e, FF = Err e /\ run_point oob a c radius (mkdec poles s K N (Z.to_nat m) th ph gsh) x = Err e) \/
      exists y' z', FF = Ok y' /\ run_point oob a c radius (mkdec poles s K N (Z.to_nat m) th ph gsh) x
          = Ok (a_br z', a_bt z', a_bp z') /\ arel x y' z').
    { intros x. unfold run_point. cbn [e_nmin e_nmax e_mmax e_poles e_s e_theta e_phi e_sh].
      unfold synth_point.
      assert (HP : legendre_poly oob N (bread th x) = Ok (P x)).
      { unfold P, legendre_poly. destruct (Nat.eqb_spec N 0); [lia|reflexivity]. }
      rewrite HP. cbn [bind].
      destruct (synth_loop_at s rr0 P (fun x => P x 1%nat 1%nat) poles th ph c (Z.to_nat m) x K N
        (mkaacc 0 (fun x => rn_init s (bread rr0 x) K) (fun _ => 0) (fun _ => 0) (fun _ => 0))
        (mkacc 0 (rn_init s (bread radius x / a) K) 0 0 0)) as [(e & E1 & E2)|(y' & z' & E1 & E2 & E3)].
      - unfold arel. cbn. repeat split; try reflexivity.
      - change (bread rr0 x) with (bread radius x / a) in E2. left. exists e. split; [exact E1|].
        rewrite E2. reflexivity.
      - change (bread rr0 x) with (bread radius x / a) in E2. right. exists y', z'. split; [exact E1|].
        rewrite E2. cbn [bind]. split; [reflexivity|exact E3]. }
    destruct FF as [y|e]; cbn [bind].
    + cbn [f_sh f_r f_t f_p]. split; [reflexivity|]. intros x.
      destruct (HK x) as [(e & E1 & _)|(y' & z' & E1 & E2 & E3)]; [discriminate|]. injection E1 as <-.
      rewrite E2. destruct E3 as (_ & _ & -> & -> & ->). reflexivity.
    + intros x. destruct (HK x) as [(e' & E1 & E2)|(y' & z' & E1 & _)]; [|discriminate].
      injection E1 as <-. exact E2.
  - revert D. unfold decode, synth_values.
    destruct (check_poles (elems theta)) as [poles|e0]; [|cbn; congruence]. cbn [bind].
    destruct (orZ nmin 1 <=? 0)%Z; [congruence|].
    destruct (infer_nmax _ _ _ _) as [n m]. destruct (n <? orZ nmin 1)%Z; [congruence|].
    fold (gridded grid theta phi). destruct (gridded grid theta phi) as [[th ph]|e0]; [|cbn; congruence]. cbn [bind fst snd sh].
    destruct (broadcast _) as [gsh|e0]; [|cbn; congruence]. cbn [bind].
    destruct (parse_source source) as [s|e0]; cbn [bind]; congruence.
Qed.
