From Verif Require Export TimeModel.
Set Implicit Arguments.
Open Scope R_scope.

(** Specification: the ideal sequence of step sizes and times. *)
Fixpoint ideal (d m g : R) (n : nat) : R := match n with O => d | S n' => Rmin (ideal d m g n' * g) m end.
Definition idealTime (t d m g : R) (n : nat) : R := t + Rsum (seq 0 n) (ideal d m g).

Lemma ideal_shift d m g n k : ideal (ideal d m g k) m g n = ideal d m g (k + n).
Proof.
  induction n as [|n IH]; [rewrite Nat.add_0_r; reflexivity|]. cbn [ideal]. rewrite IH, Nat.add_succ_r. reflexivity.
Qed.
Lemma idealTime_shift t d m g n k : idealTime (idealTime t d m g k) (ideal d m g k) m g n = idealTime t d m g (k + n).
Proof.
  unfold idealTime. rewrite seq_app, Rsum_app. cbn [plus]. rewrite Rplus_assoc. f_equal. f_equal.
  rewrite (Rsum_ext _ _ (fun i => ideal d m g (k + i))) by (intros; apply ideal_shift).
  rewrite <- (Rsum_map (fun i => (k + i)%nat) (seq 0 n) (ideal d m g)). f_equal.
  assert (A : forall s, seq (k + s) n = map (fun i => (k + i)%nat) (seq s n)).
  { induction n as [|n IH]; intros s; [reflexivity|]. cbn [seq map]. f_equal. rewrite <- IH. f_equal. lia. }
  rewrite <- A, Nat.add_0_r. reflexivity.
Qed.

Lemma seq_iter p n : iter (seqStep p) n (seqStart p) =
  SeqS (n + initialStep p) (ideal (initialValue p) (finalValue p) (growthFactor p) n).
Proof. induction n as [|n IH]; [reflexivity|]. cbn [iter]. rewrite IH. reflexivity. Qed.
Lemma sumLoop_eq p n val sum : sumLoop p n val sum = sum + Rsum (seq 0 n) (ideal val (finalValue p) (growthFactor p)).
Proof.
  revert val sum. induction n as [|n IH]; intros val sum; cbn [sumLoop]; [cbn; ring|]. rewrite IH. cbn [seq Rsum]. rewrite Rplus_assoc. f_equal. f_equal.
  rewrite <- seq_shift, Rsum_map. apply Rsum_ext. intros i _. apply (ideal_shift val (finalValue p) (growthFactor p) i 1).
Qed.
Lemma partialSum_eq p n : partialSumAt p (initialStep p + n) = Rsum (seq 0 n) (ideal (initialValue p) (finalValue p) (growthFactor p)).
Proof. unfold partialSumAt. rewrite sumLoop_eq. replace (initialStep p + n - initialStep p)%nat with n by lia. ring. Qed.
Lemma stepper_iter p n : iter (step p) n (start p) =
  StepperS (iter (seqStep (sq p)) n (seqStart (sq p)))
    (idealTime (startTime p) (initialValue (sq p)) (finalValue (sq p)) (growthFactor (sq p)) (n - 1))
    (idealTime (startTime p) (initialValue (sq p)) (finalValue (sq p)) (growthFactor (sq p)) n).
Proof.
  induction n as [|n IH].
  - cbn. unfold idealTime. cbn. unfold start. f_equal; ring.
  - cbn [iter]. rewrite IH. unfold step at 1. cbn [sqs currentTime]. f_equal.
    + f_equal. lia.
    + rewrite seq_iter. cbn [currentValue]. unfold idealTime. rewrite Rsum_seq_S. ring.
Qed.

Lemma at_ideal d m g n : 0 <= d <= m -> 0 <= g -> Rmin (d * g ^ n) m = ideal d m g n.
Proof.
  intros Hd Hg. induction n as [|n IH]; [cbn; rewrite Rmult_1_r; apply Rmin_left; lra|].
  cbn [ideal]. rewrite <- IH. cbn [pow]. assert (Hp : 0 <= g ^ n) by (apply pow_le; exact Hg).
  destruct (Rle_or_lt (d * g ^ n) m) as [L|L].
  - rewrite (Rmin_left (d * g ^ n)) by exact L. f_equal. ring.
  - rewrite (Rmin_right (d * g ^ n)) by lra. 
    assert (G : 1 < g).
    { destruct (Rlt_or_le 1 g) as [|Hle]; [assumption|exfalso].
      assert (g ^ n <= 1) by (rewrite <- (pow1 n); apply pow_incr; lra).
      assert (d * g ^ n <= d * 1) by (apply Rmult_le_compat_l; lra). lra. }
    rewrite (Rmin_right (m * g)) by nra. apply Rmin_right. nra.
Qed.
Lemma ideal_bounds d m g n : 0 <= d <= m -> 0 <= g -> 0 <= ideal d m g n <= m.
Proof.
  intros Hd Hg. induction n as [|n IH]; cbn [ideal]; [exact Hd|]. split; [|apply Rmin_r]. apply Rmin_glb; [nra|lra].
Qed.
Lemma ideal_mono d m g n : 0 <= d <= m -> 1 <= g -> ideal d m g n <= ideal d m g (S n).
Proof.
  intros Hd Hg. destruct (@ideal_bounds d m g n Hd ltac:(lra)) as [H1 H2]. cbn [ideal]. apply Rmin_glb; [nra|exact H2].
Qed.
Lemma ideal_one d m n : d <= m -> ideal d m 1 n = d.
Proof. intros H. induction n as [|n IH]; [reflexivity|]. cbn [ideal]. rewrite IH, Rmult_1_r. apply Rmin_left. exact H. Qed.
