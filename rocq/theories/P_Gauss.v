(** Gauss-Legendre rules of every order exist. *)
From Coq Require Import Reals List Arith Lia Lra.
From Coquelicot Require Import Coquelicot.
From Verif Require Import Spec_Legendre Spec_Field Spec_Analysis P_Legendre P_Legendre2 P_LegendreTab P_Ortho P_Synth P_Spline P_Quad.
Import ListNotations.
Open Scope R_scope.

(** ** The nodes *)
Fixpoint inc (a : R) (l : list R) (b : R) : Prop :=
  match l with [] => a < b | x :: r => a < x /\ inc x r b end.

Lemma inc_lower a a' l b : a' < a -> inc a l b -> inc a' l b.
Proof. destruct l as [|x l]; cbn; [lra|]. intros H [A B]. split; [lra|exact B]. Qed.

Lemma inc_lt a l b : inc a l b -> a < b.
Proof. revert a. induction l as [|x l IH]; intros a; cbn; [auto|]. intros [A B]. apply IH in B. lra. Qed.

Lemma inc_In a l b x : inc a l b -> In x l -> a < x < b.
Proof.
  revert a. induction l as [|y l IH]; intros a; cbn; [intros _ []|]. intros [A B] [->|H].
  - split; [exact A|]. apply inc_lt in B. exact B.
  - specialize (IH y B H). lra.
Qed.

Lemma rolle_chain (f f' : R -> R) b l : (forall x, is_derive f x (f' x)) -> f b = 0 -> forall a, f a = 0 ->
  (forall x, In x l -> f x = 0) -> inc a l b ->
  exists l', List.length l' = S (List.length l) /\ inc a l' b /\ forall x, In x l' -> f' x = 0.
Proof.
  intros D Hb. induction l as [|y l IH]; intros a Ha Hl Hi.
  - cbn in Hi. destruct (MVT_cor2 f f' a b Hi) as (c & E & Hc).
    + intros c _. apply is_derive_Reals, D.
    + exists [c]. split; [reflexivity|]. split; [cbn; lra|]. intros x [<-|[]].
      rewrite Ha, Hb in E. symmetry in E. rewrite Rminus_0_r in E. apply Rmult_integral in E. destruct E; [assumption|lra].
  - cbn in Hi. destruct Hi as [H1 H2].
    destruct (IH y (Hl y (or_introl eq_refl)) (fun x Hx => Hl x (or_intror Hx)) H2) as (l' & L & I & Z).
    destruct (MVT_cor2 f f' a y H1) as (c & E & Hc).
    { intros c _. apply is_derive_Reals, D. }
    exists (c :: l'). split; [cbn; rewrite L; reflexivity|]. split; [cbn; split; [lra|apply (inc_lower y); [lra|exact I]]|].
    intros x [<-|Hx]; [|apply Z, Hx]. rewrite Ha, (Hl y (or_introl eq_refl)) in E. symmetry in E. rewrite Rminus_0_r in E.
    apply Rmult_integral in E. destruct E; [assumption|lra].
Qed.

Lemma dw_end n k x : x * x = 1 -> (k < n)%nat -> dw n k x = 0.
Proof.
  intros Hx. revert k. induction n as [|n IH]; intros k Hk; [lia|]. destruct k as [|k].
  - unfold dw. cbn [Derive_n]. unfold w. replace (x ^ 2 - 1) with 0 by (cbn; lra). cbn. ring.
  - rewrite dw_A, IH by lia. destruct k as [|k]; [cbn [INR pred]; ring|]. cbn [pred]. rewrite IH by lia. ring.
Qed.

Lemma roots_dw n k : (k <= n)%nat -> exists l, List.length l = k /\ inc (-1) l 1 /\ forall x, In x l -> dw n k x = 0.
Proof.
  induction k as [|k IH]; intros Hk.
  - exists []. split; [reflexivity|]. split; [cbn; lra|]. intros x [].
  - destruct (IH ltac:(lia)) as (l & L & I & Z).
    destruct (rolle_chain (dw n k) (dw n (S k)) 1 l) with (a := -1) as (l' & L' & I' & Z').
    + intros x. apply (smooth_is_derive (w n)), smooth_w.
    + apply dw_end; [ring|lia].
    + apply dw_end; [ring|lia].
    + exact Z.
    + exact I.
    + exists l'. rewrite L', L. auto.
Qed.

Lemma roots_legendre n : exists l, List.length l = n /\ inc (-1) l 1 /\ forall x, In x l -> Qf n 0 x = 0.
Proof.
  destruct (roots_dw n n (le_n n)) as (l & L & I & Z). exists l. split; [exact L|]. split; [exact I|].
  intros x Hx. rewrite Qf_dw, Nat.add_0_r, Z by exact Hx. unfold Rdiv. ring.
Qed.

(** ** Integrals of polynomials *)
Lemma cont_poly d f x : is_poly d f -> continuous f x.
Proof.
  intros [c E]. apply (continuous_ext (polynomial d c)); [intros; symmetry; apply E|]. clear E f.
  revert c. induction d as [|d IH]; intros c.
  - apply (continuous_ext (fun _ => c 0%nat)); [intros; unfold polynomial; cbn; ring|]. apply continuous_const.
  - apply (continuous_ext (fun x => c 0%nat + x * polynomial d (fun i => c (S i)) x)); [intros; symmetry; apply polynomial_S|].
    apply (@continuous_plus R_UniformSpace R_AbsRing R_NormedModule); [apply continuous_const|].
    apply (@continuous_mult R_UniformSpace R_AbsRing); [apply continuous_id|apply IH].
Qed.

Lemma ex_int d f : is_poly d f -> ex_RInt f (-1) 1.
Proof. intros H. apply (@ex_RInt_continuous R_CompleteNormedModule). intros. apply (cont_poly d), H. Qed.

Definition int (f : R -> R) : R := RInt f (-1) 1.

Lemma int_ext f g : (forall x, f x = g x) -> int f = int g.
Proof. intros H. apply RInt_ext. intros x _. apply H. Qed.

Lemma int_plus d e f g : is_poly d f -> is_poly e g -> int (fun x => f x + g x) = int f + int g.
Proof. intros Hf Hg. apply (RInt_plus (V := R_CompleteNormedModule) f g); eapply ex_int; eassumption. Qed.

Lemma int_scal d a f : is_poly d f -> int (fun x => a * f x) = a * int f.
Proof. intros Hf. apply (RInt_scal (V := R_CompleteNormedModule) f). eapply ex_int; eassumption. Qed.

(** ** The factor theorem *)
Lemma is_poly_id : is_poly 1 (fun x => x).
Proof. exists (fun i => match i with 1%nat => 1 | _ => 0 end). intros x. unfold polynomial. cbn. ring. Qed.

Lemma is_poly_linear a : is_poly 1 (fun x => x - a).
Proof. exists (fun i => match i with 0%nat => - a | _ => 1 end). intros x. unfold polynomial. cbn. ring. Qed.

Lemma factor d a : forall p, is_poly (S d) p -> exists q, is_poly d q /\ forall x, p x = p a + (x - a) * q x.
Proof.
  induction d as [|d IH]; intros p [c E].
  - exists (fun _ => c 1%nat). split; [apply is_poly_const|]. intros x. rewrite !E. unfold polynomial. cbn. ring.
  - destruct (IH (polynomial (S d) (fun i => c (S i)))) as (q & Hq & Eq).
    { exists (fun i => c (S i)). reflexivity. }
    set (p' := polynomial (S d) (fun i => c (S i))) in *.
    exists (fun x => p' a + x * q x). split.
    + apply is_poly_add; [apply (is_poly_up 0); [lia|apply is_poly_const]|]. apply is_poly_x, Hq.
    + intros x. rewrite !E, !(polynomial_S (S d)). fold p'. rewrite (Eq x). ring.
Qed.

(** ** Weights for given nodes *)
Lemma weights l : NoDup l -> l <> [] -> forall e m, is_poly e m ->
  exists w, List.length w = List.length l /\ forall d p, (S d <= List.length l)%nat -> is_poly d p ->
    int (fun x => m x * p x) = Rsum (map (fun xw => p (fst xw) * snd xw) (combine l w)).
Proof.
  induction l as [|a l IH]; intros ND NE e m Hm; [congruence|]. inversion ND as [|? ? Na ND']; subst.
  destruct l as [|b l].
  - exists [int m]. split; [reflexivity|]. intros d p Hd Hp. cbn in Hd. assert (d = 0%nat) by lia. subst d.
    destruct Hp as [c Ec]. cbn [combine map fst snd Rsum fold_right].
    rewrite (int_ext _ (fun x => c 0%nat * m x)), (int_scal e _ _ Hm).
    + rewrite Ec. unfold polynomial. cbn. ring.
    + intros x. rewrite Ec. unfold polynomial. cbn. ring.
  - set (l0 := b :: l) in *.
    destruct (IH ND' ltac:(discriminate) (e + 1)%nat (fun x => m x * (x - a))) as (w' & Lw & Hw).
    { apply is_poly_mul; [exact Hm|apply is_poly_linear]. }
    set (v := map (fun xw => snd xw / (fst xw - a)) (combine l0 w')).
    assert (Lv : List.length v = List.length l0) by (unfold v; rewrite map_length, combine_length, Lw; lia).
    exists ((int m - Rsum v) :: v). split; [cbn [List.length]; rewrite Lv; reflexivity|].
    intros d p Hd Hp. cbn [List.length] in Hd.
    assert (Hp' : is_poly (S (pred d)) p) by (apply (is_poly_up d); [lia|exact Hp]).
    destruct (factor (pred d) a p Hp') as (q & Hq & Eq).
    specialize (Hw (pred d) q ltac:(unfold l0 in *; cbn [List.length] in *; lia) Hq).
    assert (HP : is_poly (e + 1 + pred d) (fun x => m x * (x - a) * q x)).
    { apply is_poly_mul; [apply is_poly_mul; [exact Hm|apply is_poly_linear]|exact Hq]. }
    rewrite (int_ext _ (fun x => p a * m x + m x * (x - a) * q x)).
    2:{ intros x. rewrite (Eq x). ring. }
    rewrite (int_plus e _ _ _ (is_poly_scal e (p a) m Hm) HP), (int_scal e _ _ Hm), Hw.
    cbn [combine map fst snd]. rewrite Rsum_cons.
    enough (E : Rsum (map (fun xw => q (fst xw) * snd xw) (combine l0 w')) = Rsum (map (fun xw => p (fst xw) * snd xw) (combine l0 v)) - p a * Rsum v).
    { rewrite E. ring. }
    assert (K : forall l0 w', ~ In a l0 -> List.length w' = List.length l0 ->
      Rsum (map (fun xw => q (fst xw) * snd xw) (combine l0 w')) =
      Rsum (map (fun xw => p (fst xw) * snd xw) (combine l0 (map (fun xw => snd xw / (fst xw - a)) (combine l0 w')))) - p a * Rsum (map (fun xw => snd xw / (fst xw - a)) (combine l0 w'))).
    { clear - Eq. induction l0 as [|y l0 IH]; intros w' Hi HL; destruct w' as [|u w']; cbn [List.length] in HL; try lia.
      - cbn. ring.
      - cbn [combine map fst snd]. rewrite !Rsum_cons. rewrite IH; [|intros X; apply Hi; right; exact X|lia].
        assert (y - a <> 0) by (intros X; apply Hi; left; lra). rewrite (Eq y). field. assumption. }
    apply K; assumption.
Qed.

(** ** Orthogonality of the Legendre polynomial to lower degrees *)
Definition lspan (d : nat) (f : R -> R) : Prop := exists a, forall x, f x = Rsum (map (fun k => a k * Qf k 0 x) (seq 0 (S d))).

Lemma lspan_ext d f g : (forall x, f x = g x) -> lspan d f -> lspan d g.
Proof. intros H [a E]. exists a. intros. rewrite <- H. apply E. Qed.
Lemma lspan_lin d a b f g : lspan d f -> lspan d g -> lspan d (fun x => a * f x + b * g x).
Proof.
  intros [u E] [v F]. exists (fun k => a * u k + b * v k). intros x. rewrite E, F, <- !Rsum_map_scal, <- Rsum_map_plus.
  apply Rsum_map_ext. intros; ring.
Qed.
Lemma lspan_gen d k : (k <= d)%nat -> lspan d (Qf k 0).
Proof.
  intros H. exists (fun i => if Nat.eqb i k then 1 else 0). intros x.
  symmetry. apply (Rsum_single (fun i => Qf i 0 x)). lia.
Qed.
Lemma lspan_sum d n (f : nat -> R -> R) a : (forall k, (k < n)%nat -> lspan d (f k)) -> lspan d (fun x => Rsum (map (fun k => a k * f k x) (seq 0 n))).
Proof.
  induction n as [|n IH]; intros H.
  - exists (fun _ => 0). intros x. symmetry. apply Rsum_map_0. intros; ring.
  - apply (lspan_ext _ (fun x => 1 * Rsum (map (fun k => a k * f k x) (seq 0 n)) + a n * f n x)).
    + intros x. rewrite P_Spline.Rsum_snoc. ring.
    + apply lspan_lin; [apply IH; intros; apply H; lia|apply H; lia].
Qed.
Lemma lspan_x k : lspan (S k) (fun x => x * Qf k 0 x).
Proof.
  destruct k as [|k].
  - apply (lspan_ext _ (Qf 1 0)); [|apply lspan_gen; lia].
    intros x. rewrite (Qf_sub 0), Qf_00. cbn [INR]. ring.
  - pose proof (pos_INR k) as P.
    apply (lspan_ext _ (fun x => (INR (S (S k)) / (2 * INR (S k) + 1)) * Qf (S (S k)) 0 x + (INR (S k) / (2 * INR (S k) + 1)) * Qf k 0 x)).
    + intros x. pose proof (Qf_rec k 0 x) as E. change (INR 0) with 0 in E. rewrite !S_INR in *.
      transitivity (((INR k + 1 + 1 - 0) * Qf (S (S k)) 0 x + (INR k + 1 + 0) * Qf k 0 x) / (2 * (INR k + 1) + 1)); [field; lra|].
      rewrite E. field. lra.
    + apply lspan_lin; apply lspan_gen; lia.
Qed.
Lemma lspan_poly d : forall p, is_poly d p -> lspan d p.
Proof.
  induction d as [|d IH]; intros p [c E].
  - apply (lspan_ext _ (fun x => c 0%nat * Qf 0 0 x + 0 * Qf 0 0 x)).
    + intros x. rewrite E, Qf_00. unfold polynomial. cbn. ring.
    + apply lspan_lin; apply lspan_gen; lia.
  - destruct (IH (polynomial d (fun i => c (S i)))) as [a Ea]; [exists (fun i => c (S i)); reflexivity|].
    apply (lspan_ext _ (fun x => c 0%nat * Qf 0 0 x + 1 * Rsum (map (fun k => a k * (x * Qf k 0 x)) (seq 0 (S d))))).
    + intros x. rewrite E, polynomial_S, Ea, Qf_00.
      rewrite (Rsum_map_ext (fun k => a k * (x * Qf k 0 x)) (fun k => x * (a k * Qf k 0 x))) by (intros; ring).
      rewrite Rsum_map_scal. ring.
    + apply lspan_lin; [apply lspan_gen; lia|].
      apply (lspan_sum (S d) (S d) (fun k x => x * Qf k 0 x)). intros k Hk.
      destruct (lspan_x k) as [b Eb]. apply (lspan_ext _ (fun x => Rsum (map (fun i => b i * Qf i 0 x) (seq 0 (S (S k)))))).
      * intros x. symmetry. apply Eb.
      * apply (lspan_sum (S d) (S (S k)) (fun i x => Qf i 0 x)). intros i Hi. apply lspan_gen. lia.
Qed.

Lemma is_poly_leg n : is_poly n (Qf n 0).
Proof. apply (is_poly_Qf 0 n n eq_refl). Qed.

Lemma legendre_orth n d q : (d < n)%nat -> is_poly d q -> int (fun x => Qf n 0 x * q x) = 0.
Proof.
  intros Hd Hq. destruct (lspan_poly d q Hq) as [a Ea].
  rewrite (int_ext _ (fun x => Rsum (map (fun k => a k * prod 0 n k x) (seq 0 (S d))))).
  2:{ intros x. rewrite Ea, <- Rsum_map_scal. apply Rsum_map_ext. intros k _. unfold prod. cbn [pow]. ring. }
  assert (K : forall c, (c <= S d)%nat -> int (fun x => Rsum (map (fun k => a k * prod 0 n k x) (seq 0 c))) = 0 /\
      is_poly (n + d) (fun x => Rsum (map (fun k => a k * prod 0 n k x) (seq 0 c)))).
  { induction c as [|c IH]; intros Hc.
    - split.
      + rewrite (int_ext _ (fun _ => 0 * 0)) by (intros; cbn; ring). rewrite (int_scal 0 0 (fun _ => 0) (is_poly_const 0)). ring.
      + apply (is_poly_up 0); [lia|]. apply (is_poly_ext _ (fun _ => 0)); [intros; reflexivity|]. apply is_poly_const.
    - destruct (IH ltac:(lia)) as [I P].
      assert (PP : is_poly (n + d) (fun x => a c * prod 0 n c x)).
      { apply (is_poly_up (n + c)); [lia|]. apply is_poly_scal, is_poly_prod; lia. }
      split.
      + rewrite (int_ext _ (fun x => Rsum (map (fun k => a k * prod 0 n k x) (seq 0 c)) + a c * prod 0 n c x)) by (intros; apply P_Spline.Rsum_snoc).
        rewrite (int_plus _ _ _ _ P PP), I, (int_scal (n + c) _ _ (is_poly_prod 0 n c ltac:(lia) ltac:(lia))).
        change (int (prod 0 n c)) with (J 0 n c). rewrite J_ortho by lia. ring.
      + apply (is_poly_ext _ (fun x => Rsum (map (fun k => a k * prod 0 n k x) (seq 0 c)) + a c * prod 0 n c x)); [intros; symmetry; apply P_Spline.Rsum_snoc|].
        apply is_poly_add; assumption. }
  apply K. lia.
Qed.

(** ** Remainder at the nodes *)
Definition node_poly (l : list R) (x : R) : R := fold_right (fun a r => (x - a) * r) 1 l.

Lemma divide l : forall d p, (List.length l <= d)%nat -> is_poly d p -> l <> [] ->
  exists q r, is_poly (d - List.length l) q /\ is_poly (List.length l - 1) r /\ forall x, p x = r x + node_poly l x * q x.
Proof.
  induction l as [|a l IH]; intros d p Hd Hp NE; [congruence|]. cbn [List.length] in *.
  destruct d as [|d]; [lia|]. destruct (factor d a p Hp) as (q & Hq & Eq).
  destruct l as [|b l].
  - exists q, (fun _ => p a). cbn [List.length]. replace (S d - 1)%nat with d by lia. split; [exact Hq|]. split; [apply is_poly_const|].
    intros x. rewrite (Eq x). cbn. ring.
  - destruct (IH d q ltac:(cbn [List.length] in *; lia) Hq ltac:(discriminate)) as (q' & r' & Hq' & Hr' & E').
    exists q', (fun x => p a + (x - a) * r' x). split; [exact Hq'|]. split.
    + cbn [List.length] in *. replace (S (S (List.length l)) - 1)%nat with (S (List.length l)) by lia.
      replace (S (List.length l) - 1)%nat with (List.length l) in Hr' by lia.
      apply is_poly_add; [apply (is_poly_up 0); [lia|apply is_poly_const]|].
      apply (is_poly_mul 1 (List.length l)); [apply is_poly_linear|exact Hr'].
    + intros x. rewrite (Eq x), (E' x). cbn [node_poly fold_right]. fold (node_poly (b :: l) x). cbn [node_poly fold_right]. ring.
Qed.

Lemma node_poly_root l x : In x l -> node_poly l x = 0.
Proof. induction l as [|a l IH]; intros H; [destruct H|]. cbn. destruct H as [->|H]; [ring|]. fold (node_poly l x). rewrite IH by exact H. ring. Qed.

(** a polynomial of degree n with n given roots *)
Lemma roots_factor l : NoDup l -> forall p, is_poly (List.length l) p -> (forall x, In x l -> p x = 0) ->
  exists c, forall x, p x = c * node_poly l x.
Proof.
  induction l as [|a l IH]; intros ND p Hp Hz.
  - destruct Hp as [c E]. exists (c 0%nat). intros x. rewrite E. unfold polynomial. cbn. ring.
  - inversion ND as [|? ? Na ND']; subst. cbn [List.length] in Hp. destruct (factor _ a p Hp) as (q & Hq & Eq).
    rewrite (Hz a (or_introl eq_refl)) in Eq.
    destruct (IH ND' q Hq) as [c Ec].
    + intros x Hx. pose proof (Eq x) as E. rewrite (Hz x (or_intror Hx)), Rplus_0_l in E. symmetry in E.
      apply Rmult_integral in E. destruct E as [E|E]; [|exact E]. exfalso. apply Na. replace a with x by lra. exact Hx.
    + exists c. intros x. rewrite (Eq x), Ec. cbn [node_poly fold_right]. fold (node_poly l x). ring.
Qed.

Lemma inc_NoDup a l b : inc a l b -> NoDup l.
Proof.
  revert a. induction l as [|x l IH]; intros a H; [constructor|]. cbn in H. destruct H as [H1 H2]. constructor.
  - intros Hx. pose proof (inc_In _ _ _ _ H2 Hx). lra.
  - exact (IH x H2).
Qed.

Lemma nodes_rule n l w : (1 <= n)%nat -> List.length l = n -> inc (-1) l 1 -> (forall x, In x l -> Qf n 0 x = 0) ->
  List.length w = List.length l -> (forall d p, (S d <= List.length l)%nat -> is_poly d p ->
    int (fun x => 1 * p x) = Rsum (map (fun xw => p (fst xw) * snd xw) (combine l w))) -> gauss_rule n l w.
Proof.
  intros Hn L I Z Lw Hw. pose proof (inc_NoDup _ _ _ I) as ND.
  assert (NE : l <> []) by (intros ->; cbn in L; lia).
  split; [exact L|]. split; [lia|]. split.
  { apply List.Forall_forall. intros x Hx. exact (inc_In _ _ _ _ I Hx). }
  destruct (roots_factor l ND (Qf n 0)) as [c Ec]; [rewrite L; apply is_poly_leg|exact Z|].
  assert (Hc : c <> 0).
  { intros ->. specialize (Ec 1). rewrite legendre_one in Ec. lra. }
  intros d cf Hd. set (p := polynomial d cf).
  assert (Hp : is_poly (2 * n - 1) p) by (apply (is_poly_up d); [exact Hd|exists cf; reflexivity]).
  destruct (divide l (2 * n - 1) p ltac:(lia) Hp NE) as (q & r & Hq & Hr & E). rewrite L in Hq, Hr.
  transitivity (Rsum (map (fun xw => r (fst xw) * snd xw) (combine l w))).
  - apply Rsum_map_ext. intros [y v] Hy. apply in_combine_l in Hy. cbn [fst snd]. rewrite E, node_poly_root by exact Hy. ring.
  - rewrite <- (Hw (n - 1)%nat r ltac:(lia) Hr). symmetry. change (int p = int (fun x => 1 * r x)).
    rewrite (int_ext p (fun x => 1 * r x + / c * (Qf n 0 x * q x))).
    2:{ intros x. rewrite E, Ec. field. exact Hc. }
    assert (HQ : is_poly (n + (2 * n - 1 - n)) (fun x => Qf n 0 x * q x)) by (apply is_poly_mul; [apply is_poly_leg|exact Hq]).
    rewrite (int_plus _ _ _ _ (is_poly_scal _ 1 _ Hr) (is_poly_scal _ (/ c) _ HQ)), (int_scal _ _ _ HQ).
    rewrite (legendre_orth n (n - 1) q ltac:(lia)); [ring|]. apply (is_poly_up (2 * n - 1 - n)); [lia|exact Hq].
Qed.

Theorem gauss_rule_exists n : (1 <= n)%nat -> exists x w, gauss_rule n x w.
Proof.
  intros Hn. destruct (roots_legendre n) as (l & L & I & Z). pose proof (inc_NoDup _ _ _ I) as ND.
  assert (NE : l <> []) by (intros ->; cbn in L; lia).
  destruct (weights l ND NE 0%nat (fun _ => 1) (is_poly_const 1)) as (w & Lw & Hw).
  exists l, w. apply nodes_rule; assumption.
Qed.
