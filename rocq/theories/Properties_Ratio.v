(** C21, continued: the mean ratio per vacancy and its spread. *)
From Verif Require Import TotalsProofs.
Open Scope R_scope.

Lemma ltb_pos z : (0 < z)%Z -> (0 <? z)%Z = true.
Proof. intros H. apply Z.ltb_lt. exact H. Qed.
Lemma vol_ones rs : (forall k r0, nth_error rs k = Some r0 -> len r0 = 1%Z) -> vol rs = 1%Z.
Proof.
  induction rs as [|r rs IH]; intros H; [reflexivity|]. cbn [vol fold_right]. fold (vol rs).
  rewrite (H 0%nat r eq_refl), IH; [reflexivity|]. intros k. apply (H (S k)).
Qed.
Lemma vol_one rs : forall s r, nth_error rs s = Some r -> (forall k r0, nth_error rs k = Some r0 -> k <> s -> len r0 = 1%Z) -> vol rs = len r.
Proof.
  induction rs as [|r0 rs IH]; intros s r E H; [destruct s; discriminate|]. cbn [vol fold_right]. fold (vol rs). destruct s as [|s].
  - injection E as ->. rewrite vol_ones; [ring|]. intros k r1 E1. apply (H (S k)); auto.
  - rewrite (H 0%nat r0 eq_refl) by lia. rewrite (IH s r E); [ring|]. intros k r1 E1 Hk. apply (H (S k)); auto.
Qed.
Lemma vol_two rs : forall s v r r', nth_error rs s = Some r -> nth_error rs v = Some r' -> s <> v ->
  (forall k r0, nth_error rs k = Some r0 -> k <> s -> k <> v -> len r0 = 1%Z) -> vol rs = (len r * len r')%Z.
Proof.
  induction rs as [|r0 rs IH]; intros s v r r' E E' N H; [destruct s; discriminate|]. cbn [vol fold_right]. fold (vol rs). destruct s as [|s], v as [|v].
  - lia.
  - injection E as ->. f_equal. apply (vol_one rs v); [exact E'|]. intros k r1 E1 Hk. apply (H (S k)); auto; lia.
  - injection E' as ->. rewrite (vol_one rs s r E); [ring|]. intros k r1 E1 Hk. apply (H (S k)); auto; lia.
  - rewrite (H 0%nat r0 eq_refl) by lia. rewrite (IH s v r r' E E'); [ring|lia|]. intros k r1 E1 H1 H2. apply (H (S k)); auto; lia.
Qed.
Lemma comps_pair rs : forall k l r r' (q : Z -> Z -> R), Forall (fun r => fst r < snd r)%Z rs -> k <> l ->
  nth_error rs k = Some r -> nth_error rs l = Some r' ->
  Rsum (comps rs) (fun x => q (nth k x 0%Z) (nth l x 0%Z)) =
  IZR (vol rs) / (IZR (len r) * IZR (len r')) * Rsum (inter r) (fun a => Rsum (inter r') (fun b => q a b)).
Proof.
  assert (N : forall r : Z * Z, (fst r < snd r)%Z -> IZR (len r) <> 0) by (intros r H; apply not_0_IZR; unfold len; lia).
  induction rs as [|r0 rs IH]; intros k l r r' q HF Hkl Hk Hl; [destruct k; discriminate|].
  inversion HF as [|? ? H1 H2]; subst. cbn [comps vol fold_right]. fold (vol rs). rewrite Rsum_flat_map, mult_IZR.
  assert (At : forall j z, nth_error rs j = Some z -> IZR (len z) <> 0).
  { intros j z E. apply N. rewrite Forall_forall in H2. apply H2. eapply nth_error_In; eauto. }
  destruct k as [|k], l as [|l]; [congruence| | |].
  - injection Hk as ->. cbn [nth_error] in Hl. pose proof (N r H1). pose proof (At l r' Hl).
    rewrite (Rsum_ext _ _ (fun x => IZR (vol rs) / IZR (len r') * Rsum (inter r') (fun b => q x b))).
    + rewrite Rsum_scal. field. split; auto.
    + intros x _. rewrite Rsum_map. cbn [nth]. apply (comps_axis _ (fun b => q x b) H2 Hl).
  - injection Hl as ->. cbn [nth_error] in Hk. pose proof (N r' H1). pose proof (At k r Hk).
    rewrite (Rsum_ext _ _ (fun x => IZR (vol rs) / IZR (len r) * Rsum (inter r) (fun a => q a x))).
    + rewrite Rsum_scal, (Rsum_swap (inter r')). field. split; auto.
    + intros x _. rewrite Rsum_map. cbn [nth]. apply (comps_axis _ (fun a => q a x) H2 Hk).
  - cbn [nth_error] in Hk, Hl. pose proof (At k r Hk). pose proof (At l r' Hl). pose proof (N r0 H1).
    rewrite (Rsum_ext _ _ (fun x => IZR (vol rs) / (IZR (len r) * IZR (len r')) * Rsum (inter r) (fun a => Rsum (inter r') (fun b => q a b)))).
    + rewrite Rsum_const. rewrite inter_len by lia. field. split; auto.
    + intros x _. rewrite Rsum_map. cbn [nth]. apply IH; auto; lia.
Qed.

(** Each cluster lies either entirely in the region with vacancies or entirely outside. *)
Definition separated (v : nat) (cs : list tcl) : Prop :=
  forall i, (i < length cs)%nat -> (0 < fst (axis (nth i cs tdummy) v))%Z \/ axis (nth i cs tdummy) v = (0, 1)%Z.
(** Nothing but the two axes is grouped. *)
Definition onlyTwo (ns s v : nat) (cs : list tcl) : Prop :=
  forall i k, (i < length cs)%nat -> (k < ns)%nat -> k <> s -> k <> v -> len (axis (nth i cs tdummy) k) = 1%Z.
Definition still : nat -> nat -> R := fun _ _ => 0.
Lemma still_at f i c x : reconstructed f still i c x = f i.
Proof. unfold reconstructed, still. rewrite Rsum_zero; [ring|]. intros; ring. Qed.

(** A quantity of the size and the vacancies of the compositions with vacancies. *)
Lemma pair_sum ns cs f v s m (w : tcl -> Z -> Z -> R) : proper ns cs -> (s < ns)%nat -> (v < ns)%nat -> s <> v ->
  separated v cs -> onlyTwo ns s v cs ->
  compositionSum cs f still s m (fun c x => if (0 <? nth v x 0)%Z then w c (nth s x 0%Z) (nth v x 0%Z) else 0) =
  reduce cs (fun i c => if (0 <? fst (axis c v))%Z then Rsum (inter (axis c s)) (fun j => if (m <=? j)%Z then
      Rsum (inter (axis c v)) (fun l => f i * w c j l) else 0) else 0).
Proof.
  intros HP Hs Hv Nsv Sep Two. unfold compositionSum, reduce. apply Rsum_ext. intros i Hi. apply in_seq in Hi.
  unfold proper in HP. rewrite Forall_forall in HP. destruct (HP (nth i cs tdummy)) as [HL HA]; [apply nth_In; lia|]. cbv zeta.
  specialize (Sep i ltac:(lia)). specialize (fun k => Two i k ltac:(lia)). set (c := nth i cs tdummy) in *.
  assert (HF : Forall (fun r => fst r < snd r)%Z (taxes c)) by (eapply Forall_impl; [|exact HA]; cbn; lia).
  pose proof (@axis_nth ns c HL s Hs) as Es. pose proof (@axis_nth ns c HL v Hv) as Ev.
  pose proof (@axis_pos ns c HL HA s Hs) as Ps. pose proof (@axis_pos ns c HL HA v Hv) as Pv.
  pose (q := fun a b => if (m <=? a)%Z then f i * (if (0 <? b)%Z then w c a b else 0) else 0).
  rewrite (Rsum_ext _ _ (fun x => q (nth s x 0%Z) (nth v x 0%Z))).
  2:{ intros x _. rewrite still_at. reflexivity. }
  rewrite (comps_pair (taxes c) s v (axis c s) (axis c v) q) by auto. unfold q. clear q.
  rewrite (vol_two (taxes c) s v (axis c s) (axis c v)) by (auto; intros k r0 E K1 K2;
    assert (Hk : (k < ns)%nat) by (rewrite <- HL; apply nth_error_Some; congruence);
    pose proof (@axis_nth ns c HL k Hk) as Ek; rewrite E in Ek; injection Ek as ->; apply Two; auto).
  rewrite mult_IZR. assert (IZR (len (axis c s)) <> 0) by (apply not_0_IZR; unfold len; lia). assert (IZR (len (axis c v)) <> 0) by (apply not_0_IZR; unfold len; lia).
  unfold Rdiv. rewrite Rinv_r by (apply Rmult_integral_contrapositive_currified; auto). rewrite Rmult_1_l.
  destruct Sep as [P|P].
  - rewrite ltb_pos by exact P. apply Rsum_ext. intros a _. destruct (m <=? a)%Z.
    + apply Rsum_ext. intros b Hb. apply inter_In in Hb. rewrite ltb_pos by lia. reflexivity.
    + apply Rsum_0.
  - rewrite P. cbn [fst Z.ltb Z.compare]. apply Rsum_zero. intros a _. apply Rsum_zero. intros b Hb. apply inter_In in Hb. cbn [fst snd] in Hb.
    replace (0 <? b)%Z with false by (symmetry; apply Z.ltb_ge; lia). destruct (m <=? a)%Z; ring.
Qed.
Lemma denominator_sum ns cs f v s m : proper ns cs -> (s < ns)%nat -> (v < ns)%nat -> s <> v -> separated v cs -> onlyTwo ns s v cs ->
  ratioDenominator cs f v s m =
  compositionSum cs f still s m (fun c x => if (0 <? nth v x 0)%Z then radius c * radius c * radius c else 0).
Proof.
  intros HP Hs Hv Nsv Sep Two. rewrite (pair_sum ns cs f v s m (fun c _ _ => radius c * radius c * radius c)) by auto.
  unfold ratioDenominator, reduce. apply Rsum_ext. intros i Hi. apply in_seq in Hi.
  unfold proper in HP. rewrite Forall_forall in HP. destruct (HP (nth i cs tdummy)) as [HL HA]; [apply nth_In; lia|].
  specialize (fun k => Two i k ltac:(lia)). set (c := nth i cs tdummy) in *.
  pose proof (@axis_nth ns c HL s Hs) as Es. pose proof (@axis_nth ns c HL v Hv) as Ev.
  pose proof (@axis_pos ns c HL HA s Hs) as Ps. pose proof (@axis_pos ns c HL HA v Hv) as Pv.
  destruct (0 <? _)%Z; [|reflexivity]. apply Rsum_ext. intros j _. destruct (m <=? j)%Z; [|reflexivity].
  rewrite Rsum_const, inter_len by lia. unfold factorOf.
  rewrite (vol_two (taxes c) s v (axis c s) (axis c v)) by (auto; intros k r0 E K1 K2;
    assert (Hk : (k < ns)%nat) by (rewrite <- HL; apply nth_error_Some; congruence);
    pose proof (@axis_nth ns c HL k Hk) as Ek; rewrite E in Ek; injection Ek as ->; apply Two; auto).
  rewrite mult_IZR. field. apply not_0_IZR. unfold len. lia.
Qed.

(** The reported ratio is the mean, over the compositions with vacancies and weighted with their
    volume, of the atoms of the species per vacancy. Missing: groups along a third axis
    (c21_ratio_refuted), and moments. *)
Theorem c21_ratio_partial ns cs f v s m : proper ns cs -> (s < ns)%nat -> (v < ns)%nat -> s <> v -> separated v cs -> onlyTwo ns s v cs ->
  getTotalVolumeRatio cs f [v] s m =
  compositionSum cs f still s m (fun c x => if (0 <? nth v x 0)%Z then IZR (nth s x 0%Z) / IZR (nth v x 0%Z) * radius c ^ 3 else 0) /
  compositionSum cs f still s m (fun c x => if (0 <? nth v x 0)%Z then radius c ^ 3 else 0).
Proof.
  intros HP Hs Hv Nsv Sep Two. unfold getTotalVolumeRatio. cbn [last]. f_equal.
  - rewrite (pair_sum ns cs f v s m (fun c a b => IZR a / IZR b * radius c ^ 3)) by auto.
    unfold ratioNumerator, reduce. apply Rsum_ext. intros i _. destruct (0 <? _)%Z; [|reflexivity]. apply Rsum_ext. intros j _.
    destruct (m <=? j)%Z; [|reflexivity]. apply Rsum_ext. intros l _. unfold Rdiv. cbn [pow]. ring.
  - rewrite (denominator_sum ns) by auto. unfold compositionSum. apply Rsum_ext. intros i _. cbv zeta. apply Rsum_ext. intros x _.
    destruct (m <=? _)%Z; [|reflexivity]. destruct (0 <? _)%Z; cbn [pow]; ring.
Qed.
Theorem c21_variance_partial ns cs f v s m mean : proper ns cs -> (s < ns)%nat -> (v < ns)%nat -> s <> v -> separated v cs -> onlyTwo ns s v cs ->
  varianceNumerator cs f v s mean m / ratioDenominator cs f v s m =
  compositionSum cs f still s m (fun c x => if (0 <? nth v x 0)%Z then (IZR (nth s x 0%Z) / IZR (nth v x 0%Z) - mean) ^ 2 * radius c ^ 3 else 0) /
  compositionSum cs f still s m (fun c x => if (0 <? nth v x 0)%Z then radius c ^ 3 else 0).
Proof.
  intros HP Hs Hv Nsv Sep Two. f_equal.
  - rewrite (pair_sum ns cs f v s m (fun c a b => (IZR a / IZR b - mean) ^ 2 * radius c ^ 3)) by auto.
    unfold varianceNumerator, reduce. apply Rsum_ext. intros i _. destruct (0 <? _)%Z; [|reflexivity]. apply Rsum_ext. intros j _.
    destruct (m <=? j)%Z; [|reflexivity]. apply Rsum_ext. intros l _. cbn [pow]. ring.
  - rewrite (denominator_sum ns) by auto. unfold compositionSum. apply Rsum_ext. intros i _. cbv zeta. apply Rsum_ext. intros x _.
    destruct (m <=? _)%Z; [|reflexivity]. destruct (0 <? _)%Z; cbn [pow]; ring.
Qed.
(** Without a vacancy species nothing is trapped. *)
Theorem c21_no_vacancies cs f s m : getTotalTrappedAtomConcentration cs f [] s m = 0 /\ getTotalVolumeRatio cs f [] s m = 0.
Proof. split; reflexivity. Qed.
(** Helium 1 or 2 with 4 vacancies (volume 27), and a pure vacancy: 3/8 helium per vacancy on average. *)
Definition exRatio : list tcl := [Tcl [(1, 3); (4, 5)]%Z 3; Tcl [(0, 1); (1, 2)]%Z 0].
Example c21_ratio_ok : proper 2 exRatio /\ separated 1 exRatio /\ onlyTwo 2 0 1 exRatio /\ getTotalVolumeRatio exRatio (fun _ => 2) [1%nat] 0 1 = 3 / 8.
Proof.
  split; [repeat constructor; cbn; lia|]. split.
  - intros i Hi. destruct i as [|[|i]]; cbn in *; lia.
  - split; [intros i k; lia|]. cbv -[IZR Rplus Rmult Rdiv Ropp Rminus Rinv]. field.
Qed.
Print Assumptions c21_ratio_partial.
Print Assumptions c21_variance_partial.
Print Assumptions c21_no_vacancies.
