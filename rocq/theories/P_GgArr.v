(** Proofs about M_GgArr *)
From Coq Require Import Reals List Bool Arith Lia Lra.
From Verif Require Import M_Prelude M_ND Spec_Coord M_Coord M_CoordArr M_GgArr P_ND P_Bcast P_CoordArr.
Import ListNotations.
Open Scope nat_scope.

Lemma spec_rmap {A B} (h : A -> B) l f r : spec l f r -> spec l (fun i => h (f i)) (rmap h r).
Proof. apply spec_map. Qed.

(** Operations on two arrays over the same inputs stay over these inputs. *)
Lemma spec_same {A B C} (h : A -> B -> C) l f ra g rb : spec l f ra -> spec l g rb -> spec l (fun i => h (f i) (g i)) (rop2 h ra rb).
Proof.
  intros F G. apply (spec_perm (l ++ l)); [|apply spec_rop2; assumption]. intros s. rewrite in_app_iff. tauto.
Qed.
Lemma spec_into_r {A B C} (h : A -> B -> C) l l' f ra g rb : (forall s, In s l' -> In s l) -> spec l f ra -> spec l' g rb -> spec l (fun i => h (f i) (g i)) (rop2 h ra rb).
Proof.
  intros H F G. apply (spec_perm (l ++ l')); [|apply spec_rop2; assumption]. intros s. rewrite in_app_iff. split; [intros [X|X]; auto|auto].
Qed.
Lemma spec_into_l {A B C} (h : A -> B -> C) l l' f ra g rb : (forall s, In s l' -> In s l) -> spec l' f ra -> spec l g rb -> spec l (fun i => h (f i) (g i)) (rop2 h ra rb).
Proof.
  intros H F G. apply (spec_perm (l' ++ l)); [|apply spec_rop2; assumption]. intros s. rewrite in_app_iff. split; [intros [X|X]; auto|auto].
Qed.

(** The result of two arrays over l and optional components over l ++ [..] *)
Lemma two_results {A} (l : list (list nat)) (f g : list nat -> A) ra rb (K : nd A -> nd A -> result ((nd A * nd A) * option (nd A * nd A))) :
  spec l f ra -> spec l g rb ->
  match broadcast l with
  | Ok s => exists a b, ra = Ok a /\ rb = Ok b /\ sh a = s /\ sh b = s /\ (forall i, valid s i -> at_ a i = f i /\ at_ b i = g i) /\
      bind ra (fun a => bind rb (fun b => K a b)) = K a b
  | Err _ => bind ra (fun a => bind rb (fun b => K a b)) = Err ValueError
  end.
Proof.
  intros [_ F] [_ G]. destruct (broadcast l) as [s|e]; [|rewrite F; reflexivity].
  destruct F as (a & -> & Sa & Fa). destruct G as (b & -> & Sb & Gb). exists a, b. repeat split; auto.
Qed.

Ltac sp := lazymatch goal with
 | |- spec _ _ (rmap _ _) => eapply spec_rmap; sp
 | |- spec _ _ (rop2 _ _ _) => eapply spec_same; [sp | sp]
 | |- spec _ _ _ => eassumption
 end.

(** Components: two arrays over l, two components *)
Lemma comp_spec l (f g : list nat -> vec3) r1 r3 (p q : vec3 -> R) (X Z : nd R) :
  spec l f r1 -> spec l g r3 ->
  spec (l ++ [sh X; sh Z]) (fun i => (p (f i) * bread X i + q (g i) * bread Z i)%R)
    (rop2 Rplus (rop2 Rmult (rmap p r1) (Ok X)) (rop2 Rmult (rmap q r3) (Ok Z))).
Proof.
  intros F G. eapply spec_perm; [|apply spec_rop2; apply spec_rop2; [apply spec_rmap; exact F|apply spec_in|apply spec_rmap; exact G|apply spec_in]].
  intros s. rewrite !in_app_iff. cbn [In]. tauto.
Qed.

Definition geodetic_result (sc : R -> R -> R * R) (vc : R -> R -> R -> R -> R * R * R * R)
    (p q : nd R) (x y : option (nd R)) (res : result ((nd R * nd R) * option (nd R * nd R))) : Prop :=
  match broadcast [sh p; sh q] with
  | Err _ => res = Err ValueError
  | Ok s => exists c d, sh c = s /\ sh d = s /\ (forall i, valid s i -> sc (bread p i) (bread q i) = (at_ c i, at_ d i)) /\
      match x, y with
      | Some x, Some y =>
          match broadcast [sh p; sh q; sh x; sh y] with
          | Err _ => res = Err ValueError
          | Ok u => exists e f, res = Ok ((c, d), Some (e, f)) /\ sh e = u /\ sh f = u /\
              forall i, valid u i -> vc (bread p i) (bread q i) (bread x i) (bread y i) = (sc (bread p i) (bread q i), at_ e i, at_ f i)
          end
      | _, _ => res = Ok ((c, d), None)
      end
  end.

Lemma geodetic_generic sc vc (p q : nd R) x y rc rd (re rf : nd R -> nd R -> result (nd R)) fc fd fe ff :
  let l := [sh p; sh q] in
  spec l fc rc -> spec l fd rd ->
  (forall x y, spec (l ++ [sh x; sh y]) (fe x y) (re x y)) -> (forall x y, spec (l ++ [sh x; sh y]) (ff x y) (rf x y)) ->
  (forall i, sc (bread p i) (bread q i) = (fc i, fd i)) ->
  (forall x y i, vc (bread p i) (bread q i) (bread x i) (bread y i) = (fc i, fd i, fe x y i, ff x y i)) ->
  geodetic_result sc vc p q x y
    (bind rc (fun c => bind rd (fun d => bind (both x y (fun x y => bind (re x y) (fun e => bind (rf x y) (fun f => Ok (e, f))))) (fun comp => Ok ((c, d), comp))))).
Proof.
  intros l [_ C] [_ D] E F Hsc Hvc. unfold geodetic_result. fold l. destruct (broadcast l) as [s|er] eqn:El; [|rewrite C; reflexivity].
  destruct C as (c & -> & Sc & Hc). destruct D as (d & -> & Sd & Hd). exists c, d. split; [exact Sc|]. split; [exact Sd|].
  split; [intros i V; rewrite Hsc, Hc, Hd by exact V; reflexivity|]. cbn [bind].
  destruct x as [x|], y as [y|]; try reflexivity. cbn [both].
  destruct (E x y) as [_ E']. destruct (F x y) as [_ F']. change (l ++ [sh x; sh y]) with [sh p; sh q; sh x; sh y] in *.
  destruct (broadcast [sh p; sh q; sh x; sh y]) as [u|er]; [|rewrite E'; reflexivity].
  destruct E' as (e & -> & Se & He). destruct F' as (f & -> & Sf & Hf). exists e, f. split; [reflexivity|]. split; [exact Se|]. split; [exact Sf|].
  intros i V. rewrite Hvc, Hsc, He, Hf by exact V. reflexivity.
Qed.

Lemma gg_specs theta beta l f g : spec l f theta -> spec l g beta -> let '(g1, _, g3) := basevectors_gg_nd theta beta in
  spec l (fun i => fst (fst (basevectors_gg (f i) (g i)))) g1 /\ spec l (fun i => snd (basevectors_gg (f i) (g i))) g3.
Proof.
  intros F G. unfold basevectors_gg_nd. cbv zeta. split; (eapply spec_ext; [|sp]); reflexivity.
Qed.

(** An array over one of the inputs used with an array over both *)
Lemma gg_specs_r theta beta l l' f g : (forall s, In s l' -> In s l) -> spec l f theta -> spec l' g beta -> let '(g1, _, g3) := basevectors_gg_nd theta beta in
  spec l (fun i => fst (fst (basevectors_gg (f i) (g i)))) g1 /\ spec l (fun i => snd (basevectors_gg (f i) (g i))) g3.
Proof.
  intros H F G. unfold basevectors_gg_nd. cbv zeta.
  split; (eapply spec_ext; [|eapply spec_rmap; eapply spec_rmap; eapply spec_into_r; [exact H|exact F|exact G]]); reflexivity.
Qed.
Lemma gg_specs_l theta beta l l' f g : (forall s, In s l' -> In s l) -> spec l' f theta -> spec l g beta -> let '(g1, _, g3) := basevectors_gg_nd theta beta in
  spec l (fun i => fst (fst (basevectors_gg (f i) (g i)))) g1 /\ spec l (fun i => snd (basevectors_gg (f i) (g i))) g3.
Proof.
  intros H F G. unfold basevectors_gg_nd. cbv zeta.
  split; (eapply spec_ext; [|eapply spec_rmap; eapply spec_rmap; eapply spec_into_l; [exact H|exact F|exact G]]); reflexivity.
Qed.

Theorem gg_to_geo_arrays a b height beta X Z :
  geodetic_result (gg_to_geo a b) (gg_to_geo_vec a b) height beta X Z (gg_to_geo_nd a b height beta X Z).
Proof.
  unfold gg_to_geo_nd. cbv zeta.
  set (l := [sh height; sh beta]).
  pose proof (spec_in height) as Hh. pose proof (spec_in beta) as Hb.
  assert (Ib : forall s, In s [sh beta] -> In s l) by (cbn; tauto).
  assert (Ih : forall s, In s [sh height] -> In s l) by (cbn; tauto).
  set (alpha := rmap (fun b0 => np_radians (90 - b0)) (Ok beta)).
  assert (Ha : spec [sh beta] (fun i => np_radians (90 - bread beta i)) alpha) by (apply (spec_rmap (fun b0 => np_radians (90 - b0))); exact Hb).
  clearbody alpha.
  set (factor := rop2 Rmult (Ok height) _).
  assert (Hf : spec l (fun i => bread height i * sqrt (a ^ 2 * cos (np_radians (90 - bread beta i)) ^ 2 + b ^ 2 * sin (np_radians (90 - bread beta i)) ^ 2))%R factor).
  { unfold factor. change l with ([sh height] ++ [sh beta]). eapply spec_ext; [|eapply spec_rop2; [exact Hh|sp]]. reflexivity. }
  clearbody factor.
  set (theta := rmap (fun g => (90 - np_degrees g)%R) _).
  set (radius := rmap sqrt _).
  assert (Ht : spec l (fun i => snd (gg_to_geo a b (bread height i) (bread beta i))) theta).
  { unfold theta. eapply spec_ext; [|eapply spec_rmap; eapply spec_same; [eapply spec_into_r; [exact Ib|sp|sp]|sp]]. reflexivity. }
  assert (Hr : spec l (fun i => fst (gg_to_geo a b (bread height i) (bread beta i))) radius).
  { unfold radius. eapply spec_ext; [|eapply spec_rmap; eapply spec_into_r; [exact Ib|eapply spec_into_l; [exact Ih|sp|sp]|sp]]. reflexivity. }
  clearbody theta radius.
  pose proof (gg_specs_r theta (Ok beta) l [sh beta] _ _ Ib Ht Hb) as HG.
  destruct (basevectors_gg_nd theta (Ok beta)) as [[g1 g2] g3]. destruct HG as [H1 H3].
  eapply (geodetic_generic _ _ height beta X Z radius theta
     (fun X Z => rop2 Rplus (rop2 Rmult (rmap vx g1) (Ok X)) (rop2 Rmult (rmap vx g3) (Ok Z)))
     (fun X Z => rop2 Rplus (rop2 Rmult (rmap vy g1) (Ok X)) (rop2 Rmult (rmap vy g3) (Ok Z)))).
  - exact Hr.
  - exact Ht.
  - intros x y. apply (comp_spec l); [exact H1|exact H3].
  - intros x y. apply (comp_spec l); [exact H1|exact H3].
  - intros i. apply surjective_pairing.
  - intros x y i. unfold gg_to_geo_vec. destruct (gg_to_geo a b (bread height i) (bread beta i)) as [rr tt]. reflexivity.
Qed.

Theorem geo_to_gg_arrays a b radius theta Br Bt :
  geodetic_result (geo_to_gg a b) (geo_to_gg_vec a b) radius theta Br Bt (geo_to_gg_nd a b radius theta Br Bt).
Proof.
  unfold geo_to_gg_nd. cbv zeta.
  set (l := [sh radius; sh theta]).
  pose proof (spec_in radius) as Hh. pose proof (spec_in theta) as Hb.
  assert (Ib : forall s, In s [sh theta] -> In s l) by (cbn; tauto).
  set (r := rop2 Rmult (Ok radius) (rmap (fun t => sin (np_radians t)) (Ok theta))).
  set (z := rop2 Rmult (Ok radius) (rmap (fun t => cos (np_radians t)) (Ok theta))).
  assert (Hr : spec l (fun i => bread radius i * sin (np_radians (bread theta i)))%R r).
  { unfold r. change l with ([sh radius] ++ [sh theta]). eapply spec_ext; [|eapply spec_rop2; [exact Hh|sp]]. reflexivity. }
  assert (Hz : spec l (fun i => bread radius i * cos (np_radians (bread theta i)))%R z).
  { unfold z. change l with ([sh radius] ++ [sh theta]). eapply spec_ext; [|eapply spec_rop2; [exact Hh|sp]]. reflexivity. }
  clearbody r z.
  set (height := rop2 Rmult (rmap sqrt _) _).
  set (beta := rmap (fun x => (90 - np_degrees x)%R) _).
  assert (Hht : spec l (fun i => fst (geo_to_gg a b (bread radius i) (bread theta i))) height).
  { unfold height. eapply spec_ext; [|sp]. reflexivity. }
  assert (Hbe : spec l (fun i => snd (geo_to_gg a b (bread radius i) (bread theta i))) beta).
  { unfold beta. eapply spec_ext; [|sp]. reflexivity. }
  clearbody height beta.
  pose proof (gg_specs_l (Ok theta) beta l [sh theta] _ _ Ib Hb Hbe) as HG.
  destruct (basevectors_gg_nd (Ok theta) beta) as [[g1 g2] g3]. destruct HG as [H1 H3].
  eapply (geodetic_generic _ _ radius theta Br Bt height beta
     (fun X Z => rop2 Rplus (rop2 Rmult (rmap vx g1) (Ok X)) (rop2 Rmult (rmap vy g1) (Ok Z)))
     (fun X Z => rop2 Rplus (rop2 Rmult (rmap vx g3) (Ok X)) (rop2 Rmult (rmap vy g3) (Ok Z)))).
  - exact Hht.
  - exact Hbe.
  - intros x y. apply (comp_spec l); [exact H1|exact H1].
  - intros x y. apply (comp_spec l); [exact H3|exact H3].
  - intros i. apply surjective_pairing.
  - intros x y i. unfold geo_to_gg_vec. destruct (geo_to_gg a b (bread radius i) (bread theta i)) as [rr tt]. reflexivity.
Qed.

Lemma basevectors_gg_arrays theta beta :
  let '(g1, g2, g3) := basevectors_gg_nd (Ok theta) (Ok beta) in
  match broadcast [sh theta; sh beta] with
  | Err _ => g1 = Err ValueError /\ g2 = Err ValueError /\ g3 = Err ValueError
  | Ok s => exists gg_1 gg_2 gg_3, g1 = Ok gg_1 /\ g2 = Ok gg_2 /\ g3 = Ok gg_3 /\ sh gg_1 = s /\ sh gg_2 = s /\ sh gg_3 = s /\
      forall i, valid s i -> basevectors_gg (bread theta i) (bread beta i) = (at_ gg_1 i, at_ gg_2 i, at_ gg_3 i)
  end.
Proof.
  unfold basevectors_gg_nd. cbv zeta.
  pose proof (spec_rop2 Rminus _ _ _ _ _ _ (spec_in theta) (spec_in beta)) as D. cbn [app] in D.
  pose proof (spec_rmap np_radians _ _ _ D) as P. set (psi := rmap np_radians _) in *.
  destruct (spec_rmap (fun psi => V3 (- sin psi) (- cos psi) 0) _ _ _ P) as [_ A].
  destruct (spec_rmap (fun _ => V3 0 0 1) _ _ _ P) as [_ B].
  destruct (spec_rmap (fun psi => V3 (- cos psi) (sin psi) 0) _ _ _ P) as [_ C].
  destruct (broadcast [sh theta; sh beta]) as [s|]; [|auto].
  destruct A as (a & -> & Sa & Ha). destruct B as (b & -> & Sb & Hb). destruct C as (c & -> & Sc & Hc).
  exists a, b, c. repeat (split; [reflexivity || assumption|]). intros i V. rewrite Ha, Hb, Hc by exact V. reflexivity.
Qed.
