(** Sharper statements for C02, C03, C10, C11, C12 and C46: overlap, reflection, rate laws,
    and what the reduced sparsity pattern announces. *)
From Verif Require Import SmallExamples FluxDiag.
Open Scope R_scope.

(** ** C02: the overlap of a reaction with a product is the number of balanced microscopic reactions,
    axis by axis. *)
Theorem c02_overlap_of_reaction r : v1 r = true \/ v2 r = true ->
  nOverlap r = Rprod (axes r) (fun i => INR (length (balanced (cl1 r i) (cl2 r i) (q1 r i) (q2 r i)))).
Proof.
  intros H. assert (E : noProduct r = false) by (unfold noProduct; destruct H as [-> | ->]; rewrite ?Bool.andb_false_r; reflexivity).
  unfold nOverlap. rewrite E. apply Rprod_ext. intros i _. unfold width. rewrite E. apply overlapWidth_count.
Qed.
Print Assumptions c02_overlap_of_reaction.
(** X_1 + X_[2,4) -> X_[3,5): two balanced reactions. *)
Example c02_overlap_ok : v1 oneR = true /\ nOverlap oneR = 2.
Proof. split; [reflexivity|]. rewrite c02_overlap_of_reaction by (left; reflexivity).
  change (axes oneR) with [0%nat]. cbn [Rprod].
  replace (length (balanced (cl1 oneR 0) (cl2 oneR 0) (q1 oneR 0) (q2 oneR 0))) with 2%nat by (vm_compute; reflexivity).
  cbn [INR]. lra.
Qed.

(** ** C03 *)
(** The axis of projection is that of the interstitials exactly when the first product holds any. *)
Theorem c03_projection (i : ival) : (0 <= ib i < ie i)%Z -> (projectsOnI i = true <-> exists x, In x (pts i) /\ (0 < x)%Z).
Proof.
  intros H. unfold projectsOnI. rewrite Z.ltb_lt. split.
  - intros L. exists (ie i - 1)%Z. split; [apply pts_In; lia|lia].
  - intros [x [Hx L]]. apply pts_In in Hx. lia.
Qed.
Example c03_projection_ok : projectsOnI (Iv 0 1) = false /\ projectsOnI (Iv 2 5) = true. Proof. split; reflexivity. Qed.
(** The dispersion [d] of an interval depends on its length and is 1 for a single size: if at most one of
    the ranges is grouped, the reflected dispersion is that of the reflected interval. *)
Theorem c03_dispersion (d : Z -> R) onI i v : d 1%Z = 1 -> ilen i = 1%Z \/ ilen v = 1%Z ->
  reflectedDispOne (d (ilen i)) (d (ilen v)) = d (ilen (reflectOne onI i v)).
Proof.
  intros H1 H. assert (E : ilen (reflectOne onI i v) = (ilen i + ilen v - 1)%Z) by (unfold reflectOne, ilen; destruct onI; cbn [ib ie]; lia).
  rewrite E. unfold reflectedDispOne. destruct H as [H|H]; rewrite H, H1.
  - replace (1 + ilen v - 1)%Z with (ilen v) by lia. ring.
  - replace (ilen i + 1 - 1)%Z with (ilen i) by lia. ring.
Qed.
Lemma ones_disp (d : Z -> R) ls : d 1%Z = 1 -> Forall (fun l => l = 1%Z) ls -> Rsum (map d ls) (fun x => x) = INR (length ls).
Proof.
  intros H1 H. induction H as [|l ls E H IH]; [reflexivity|]. cbn [map Rsum length]. rewrite IH, E, H1, S_INR. ring.
Qed.
(** The same with several species: [ls] the lengths along the other axes, at most one of all the axes grouped. *)
Theorem c03_dispersion_many (d : Z -> R) lv before l after : d 1%Z = 1 ->
  Forall (fun x => x = 1%Z) (before ++ after) -> lv = 1%Z \/ l = 1%Z ->
  reflectedDispMany (d lv) (map d (before ++ l :: after)) = d (lv + l - 1)%Z.
Proof.
  intros H1 HF H. apply Forall_app in HF as [HB HA]. unfold reflectedDispMany.
  rewrite map_length, app_length, map_app, Rsum_app. cbn [map Rsum length]. rewrite !ones_disp by assumption.
  rewrite plus_INR, S_INR. destruct H as [H|H]; rewrite H, H1.
  - replace (1 + l - 1)%Z with l by lia. ring.
  - replace (lv + 1 - 1)%Z with lv by lia. ring.
Qed.
Example c03_dispersion_ok : reflectedDispOne 1 (1 / 4) = 1 / 4 /\ reflectedDispMany 1 [1; 1 / 4; 1] = 1 / 4.
Proof. unfold reflectedDispOne, reflectedDispMany. cbn [Rsum length INR]. split; lra. Qed.
Print Assumptions c03_projection.
Print Assumptions c03_dispersion.
Print Assumptions c03_dispersion_many.

(** ** C10: two xenon atoms per pair; fifty pairs per fission as long as there is enough xenon *)
Theorem c10_law : forall r p fission conc, r <> p -> 0 <= conc r -> 0 <= fission ->
  acc (nuFlux (NU r p (nuComputeRate fission)) conc) p = Rmin (conc r) (100 * fission) / 2.
Proof.
  intros r p fission conc N Hc Hf. pose (u := NU r p (nuComputeRate fission)).
  assert (Hn : 0 <= nRate u) by (unfold u, nuComputeRate; cbn [nRate]; lra).
  destruct (@nu_loss u conc N Hc Hn) as [_ [E _]]. fold u. change p with (nP u) at 1. rewrite E.
  unfold u, nuComputeRate. cbn [nR nRate]. do 2 f_equal. ring.
Qed.
Example c10_law_ok : acc (nuFlux (NU 0 1 (nuComputeRate (1 / 100))) (fun _ => 7)) 1 = 1 / 2.
Proof. rewrite c10_law by (try discriminate; lra). rewrite Rmin_right by lra. lra. Qed.
Print Assumptions c10_law.

(** ** C11: the other mutations are a thousand times faster than the largest rate *)
Theorem c11_fast : forall D t largest, heCl t <> desorpId D ->
  applied D (TM (heCl t) (heVCl t) (iCl t) (heAmount t) (vSize t) (tmComputeRate D t largest)) = 1000 * largest * disap D.
Proof.
  intros D t largest H. unfold applied, tmComputeRate. cbn [heCl tmRate]. apply Nat.eqb_neq in H. rewrite H. reflexivity.
Qed.
Example c11_fast_ok : heCl tmT <> desorpId (TD 7 1 1 1 (fun _ => 0%nat) (fun _ => true)). Proof. discriminate. Qed.
Print Assumptions c11_fast.

(** ** C46: sinks and dissociations *)
Theorem c46_sink : forall r bias strength diff conc,
  acc (sinkFlux (SK r (sinkComputeRate bias strength diff)) conc) r = - (bias * strength * diff * conc r).
Proof.
  intros. unfold sinkFlux, sinkComputeRate, acc. cbn [Rsum sR sRate fst snd]. rewrite Nat.eqb_refl. ring.
Qed.
Definition ungroupedD (y : drx) : Prop := forall k, mr y k = None.
Definition dissLoss (y : drx) (conc : nat -> R) (c : nat) : R := if (rp y =? c)%nat then dfluxSum y conc 0 0 / vr y else 0.
Theorem c46_dissociation_partial : forall y conc c, ungroupedD y -> vr y = 1 -> dissLoss y conc c = dissLeft y c * conc c.
Proof.
  intros y conc c HU HV. unfold dissLoss, dissLeft. rewrite Nat.eqb_sym. destruct (Nat.eqb_spec c (rp y)) as [->|N]; [|ring].
  unfold dfluxSum, cR. rewrite HV, Rsum_zero; [field|]. intros k _. unfold cmR. rewrite HU. cbn [cval]. ring.
Qed.
(** The loss is what computeFlux writes for the reactant. *)
Theorem c46_dissociation_flux : forall y conc, In (rp y, - dissLoss y conc (rp y)) (dissFlux y conc).
Proof. intros y conc. unfold dissLoss. rewrite Nat.eqb_refl. left. reflexivity. Qed.
Definition unY : drx := DX 1 2 (fun _ => None) (fun p => p) (fun _ _ => None) 1 (fun _ => 1) 3 (fun _ => 1).
Example c46_dissociation_ok : ungroupedD unY /\ vr unY = 1 /\ dissLeft unY 2 = 3.
Proof. repeat split. unfold dissLeft, unY. cbn. ring. Qed.
Print Assumptions c46_sink.
Print Assumptions c46_dissociation_partial.
Print Assumptions c46_dissociation_flux.

(** ** C12: the reduced pattern announces diagonal entries only *)
Lemma guard_In A (o : option nat) (l : list A) x : In x (guard o l) -> In x l.
Proof. destruct o; [auto|intros []]. Qed.
Lemma when_In A b (l : list A) x : In x (when b l) -> b = true /\ In x l.
Proof. destruct b; cbn; [auto|intros []]. Qed.
Lemma selfRed_diag x r m o o' : In (o, o') (connSelfRed x r m) -> o = o'.
Proof.
  intros [E|H]; [congruence|]. apply in_flat_map in H as (i & _ & H). apply guard_In in H. apply in_flat_map in H as (j & _ & H).
  apply when_In in H as [E [H|[]]]. apply Nat.eqb_eq in E. subst j. congruence.
Qed.
Lemma crossRed_diag x d m r m' o o' : In (o, o') (connCrossRed x d m r m') -> o = o'.
Proof.
  intros H. apply in_app_iff in H as [H|H].
  - apply when_In in H as [E [H|[]]]. apply Nat.eqb_eq in E. congruence.
  - apply in_flat_map in H as (i & _ & H). apply guard_In in H. apply in_flat_map in H as (j & _ & H).
    apply when_In in H as [E [H|[]]]. apply ideqb_true in E. congruence.
Qed.
Theorem c12_reduced_is_diagonal : forall x o o', In (o, o') (prodConnRed x) -> o = o'.
Proof.
  intros x o o' H. unfold prodConnRed in H. apply in_app_iff in H as [H|H]; [eapply selfRed_diag; exact H|].
  apply in_app_iff in H as [H|H]; [eapply selfRed_diag; exact H|]. apply in_flat_map in H as (p & _ & H).
  destruct (pid x p); [|destruct H]. apply in_app_iff in H as [H|H]; eapply crossRed_diag; exact H.
Qed.
Theorem c12_dissociation_reduced_is_diagonal : forall y o o', In (o, o') (dissConnRed y) -> o = o'.
Proof.
  intros y o o' H. unfold dissConnRed in H. apply in_app_iff in H as [[E|H]|H]; [congruence| |].
  - apply in_flat_map in H as (i & _ & H). apply guard_In in H. apply in_flat_map in H as (j & _ & H).
    apply when_In in H as [E [H|[]]]. apply Nat.eqb_eq in E. subst j. congruence.
  - assert (C : forall d m, In (o, o') (dConnCrossRed y d m) -> o = o').
    { intros d m K. unfold dConnCrossRed in K. apply in_app_iff in K as [K|K].
      - apply when_In in K as [E [K|[]]]. apply Nat.eqb_eq in E. congruence.
      - apply in_flat_map in K as (i & _ & K). apply guard_In in K. apply in_flat_map in K as (j & _ & K).
        apply when_In in K as [E [K|[]]]. apply ideqb_true in E. congruence. }
    apply in_app_iff in H as [H|H]; eapply C; exact H.
Qed.
Example c12_reduced_ok : In (Some 1%nat, Some 1%nat) (prodConnRed oneX). Proof. cbn. auto 10. Qed.
Print Assumptions c12_reduced_is_diagonal.
Print Assumptions c12_dissociation_reduced_is_diagonal.
