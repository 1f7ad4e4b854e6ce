(** C22 (time-step sequence) and C23 (restart). *)
From Verif Require Import TimeProofs.
Open Scope R_scope.

(** ** C22 *)
(** Stepping [n] times from the start. *)
Definition stepped (p : seqP) (n : nat) : seqS := iter (seqStep p) n (seqStart p).

(** The stepped value equals the queried one, and the accumulated sum is the sum of
    the stepped values; missing: an initial value above the maximum and an initial
    step number other than 0 (see the refutations below). *)
Theorem c22_query_partial p n : 0 <= initialValue p <= finalValue p -> 0 <= growthFactor p -> initialStep p = 0%nat ->
  currentValue (stepped p n) = seqAt p (currentStep (stepped p n)).
Proof.
  intros H H0 H1. unfold stepped. rewrite seq_iter. cbn [currentStep currentValue]. unfold seqAt. rewrite H1, Nat.add_0_r. symmetry. apply at_ideal; assumption.
Qed.
Theorem c22_sum p n : partialSumAt p (currentStep (stepped p n)) = Rsum (seq 0 n) (fun i => currentValue (stepped p i)).
Proof.
  unfold stepped. rewrite seq_iter. cbn [currentStep]. rewrite Nat.add_comm, partialSum_eq. apply Rsum_ext. intros i _. rewrite seq_iter. reflexivity.
Qed.
Theorem c22_monotone p n : 0 <= initialValue p <= finalValue p -> 1 <= growthFactor p ->
  currentValue (stepped p n) <= currentValue (stepped p (S n)).
Proof. intros H H0. unfold stepped. rewrite !seq_iter. apply ideal_mono; assumption. Qed.
Theorem c22_capped p n : (0 < n)%nat \/ initialValue p <= finalValue p -> currentValue (stepped p n) <= finalValue p.
Proof.
  intros H. unfold stepped. rewrite seq_iter. cbn [currentValue]. destruct n as [|n]; cbn [ideal]; [destruct H; [lia|assumption]|apply Rmin_r].
Qed.
(** When the growth reaches the cap the step stays there. *)
Theorem c22_saturated p n : 0 <= initialValue p <= finalValue p -> 1 <= growthFactor p ->
  currentValue (stepped p n) = finalValue p -> currentValue (stepped p (S n)) = finalValue p.
Proof.
  unfold stepped. rewrite !seq_iter. cbn [currentValue ideal]. intros H H0 E. rewrite E. apply Rmin_right. nra.
Qed.
(** The clock of the stepper: after [n] steps the time is the start time plus the
    steps done, it is the time reported for the step number, and the previous time is
    one step back. *)
Theorem c22_stepper p n : let s := iter (step p) n (start p) in
  currentTime s = startTime p + Rsum (seq 0 n) (fun i => currentValue (stepped (sq p) i)) /\
  ((currentStep (sqs s) <= maxSteps p)%nat -> timeAtStep p (currentStep (sqs s)) = Some (currentTime s)) /\
  ((0 < n)%nat -> currentTime s = previousTime s + currentValue (stepped (sq p) (n - 1))).
Proof.
  cbn zeta. rewrite stepper_iter. cbn [currentTime sqs previousTime]. split; [|split].
  - unfold idealTime. f_equal. apply Rsum_ext. intros i _. unfold stepped. rewrite seq_iter. reflexivity.
  - intros H. unfold timeAtStep. rewrite (proj2 (Nat.leb_le _ _) H). f_equal. unfold idealTime. f_equal.
    rewrite seq_iter. cbn [currentStep]. rewrite Nat.add_comm. apply partialSum_eq.
  - intros H. destruct n as [|n]; [lia|]. replace (S n - 1)%nat with n by lia. unfold idealTime, stepped. rewrite Rsum_seq_S, seq_iter. cbn. ring.
Qed.
(** With a positive step the clock strictly advances, so a finite end time is reached
    by a step number bound: a growing sequence started at 0 < d needs at most
    (end - start)/d + 1 steps. *)
Theorem c22_terminates p n : 0 < initialValue (sq p) <= finalValue (sq p) -> 1 <= growthFactor (sq p) ->
  valid p (iter (step p) n (start p)) -> INR n * initialValue (sq p) < endTime p - startTime p.
Proof.
  intros H H0 [V _]. rewrite stepper_iter in V. cbn [currentTime] in V. unfold idealTime in V.
  assert (B : forall k, initialValue (sq p) <= ideal (initialValue (sq p)) (finalValue (sq p)) (growthFactor (sq p)) k).
  { induction k as [|k IH]; [cbn; lra|]. eapply Rle_trans; [exact IH|]. apply ideal_mono; lra. }
  assert (L : INR n * initialValue (sq p) <= Rsum (seq 0 n) (ideal (initialValue (sq p)) (finalValue (sq p)) (growthFactor (sq p)))).
  { clear V. induction n as [|n IH]; [cbn; lra|]. rewrite Rsum_seq_S, S_INR. specialize (B n). lra. }
  lra.
Qed.
Example ex_seq : seqP := SeqP 1 5 2 0.
Example ex_seq_ok : 0 <= initialValue ex_seq <= finalValue ex_seq /\ 1 <= growthFactor ex_seq /\ initialStep ex_seq = 0%nat.
Proof. cbn. split; [lra|split; [lra|reflexivity]]. Qed.
Example ex_seq_values : currentValue (stepped ex_seq 2) = 4 /\ currentValue (stepped ex_seq 3) = 5 /\ partialSumAt ex_seq 4 = 12.
Proof.
  assert (M1 : Rmin (1 * 2) 5 = 2) by (rewrite Rmin_left; lra).
  assert (M2 : Rmin (2 * 2) 5 = 4) by (rewrite Rmin_left; lra).
  assert (M3 : Rmin (4 * 2) 5 = 5) by (rewrite Rmin_right; lra).
  unfold stepped, partialSumAt; cbn; rewrite M1, M2, M3; repeat split; lra.
Qed.
Example ex_stepper : stepperP := StepperP ex_seq 0 10 20.
Example ex_stepper_valid : valid ex_stepper (iter (step ex_stepper) 2 (start ex_stepper)).
Proof.
  assert (M1 : Rmin (1 * 2) 5 = 2) by (rewrite Rmin_left; lra).
  unfold valid, ex_stepper, ex_seq; cbn; rewrite M1; split; [lra|right; lia].
Qed.
(** The queried value forgets the initial step number. *)
Theorem c22_query_refuted : exists p n, 0 < initialValue p <= finalValue p /\ 1 <= growthFactor p /\
  currentValue (stepped p n) <> seqAt p (currentStep (stepped p n)).
Proof.
  exists (SeqP 1 100 2 1), 0%nat. cbn. repeat split; try lra. unfold seqAt. cbn. rewrite Rmin_left; lra.
Qed.
(** An initial step above the maximum is used uncapped for the first step, while the
    queried value is capped. *)
Theorem c22_cap_refuted : exists p, 0 < finalValue p /\ initialStep p = 0%nat /\
  finalValue p < currentValue (stepped p 0) /\ currentValue (stepped p 0) <> seqAt p 0.
Proof. exists (SeqP 2 1 1 0). unfold seqAt. cbn. rewrite Rmin_right by lra. repeat split; lra. Qed.
(** A stepper without step limit (0) runs on, but querying a step asserts. *)
Theorem c22_unlimited_refuted : exists p n, valid p (iter (step p) n (start p)) /\
  timeAtStep p (currentStep (sqs (iter (step p) n (start p)))) = None.
Proof.
  exists (StepperP (SeqP 1 1 1 0) 0 10 0), 1%nat. unfold valid, timeAtStep. cbn. split; [|reflexivity]. split; [lra|left; reflexivity].
Qed.

(** ** C23 *)
Definition okOpts (o : opts) : Prop := 0 <= initDt o <= maxDt o /\ 0 <= gf o.
(** The uninterrupted run. *)
Lemma visit_fresh o m : visit o None m = (m, idealTime (t0 o) (initDt o) (maxDt o) (gf o) m, ideal (initDt o) (maxDt o) (gf o) m).
Proof.
  unfold visit, startTimeStepper, makeTimeStepper. rewrite stepper_iter. cbn. rewrite seq_iter. cbn. rewrite Nat.add_0_r. reflexivity.
Qed.
Lemma iter_shift A (f : A -> A) n x : iter f n (f x) = iter f (S n) x.
Proof. induction n as [|n IH]; [reflexivity|]. cbn [iter]. rewrite IH. reflexivity. Qed.
Lemma visit_restart o k t d m : visit o (Some (k, t, d)) m =
  ((S m + k)%nat, idealTime t d (maxDt o) (gf o) (S m), ideal d (maxDt o) (gf o) (S m)).
Proof.
  unfold visit, startTimeStepper. rewrite iter_shift, stepper_iter. cbn [currentTime sqs]. rewrite seq_iter. reflexivity.
Qed.
Lemma writeStop_time o stop k d : writeStopData o stop k = Some d -> (k <= maxN o)%nat.
Proof.
  unfold writeStopData, timeAtStep. replace (maxSteps (makeTimeStepper o stop)) with (maxN o) by (destruct stop as [[[? ?] ?]|]; reflexivity).
  destruct (Nat.leb k (maxN o)) eqn:E; [intros _; apply Nat.leb_le; exact E|discriminate].
Qed.
(** One restart, from any stop point, continues the grid of the uninterrupted run
    (exact arithmetic: the rounding to 14 digits is not modelled). Missing: more than
    one restart. *)
Theorem c23_once_partial o k m : okOpts o -> (k <= maxN o)%nat ->
  exists d, writeStopData o None k = Some d /\ visit o (Some d) m = visit o None (S k + m)%nat.
Proof.
  intros [H H0] K. unfold writeStopData, timeAtStep, timeStepSizeAtStep. cbn [makeTimeStepper maxSteps].
  rewrite (proj2 (Nat.leb_le _ _) K). eexists. split; [reflexivity|]. rewrite visit_restart, visit_fresh. cbn [startTime sq].
  assert (E : seqAt (SeqP (initDt o) (maxDt o) (gf o) 0) k = ideal (initDt o) (maxDt o) (gf o) k) by (apply at_ideal; assumption).
  assert (T : partialSumAt (SeqP (initDt o) (maxDt o) (gf o) 0) k = Rsum (seq 0 k) (ideal (initDt o) (maxDt o) (gf o)))
    by apply (partialSum_eq (SeqP (initDt o) (maxDt o) (gf o) 0) k).
  rewrite E, T. change (t0 o + Rsum (seq 0 k) (ideal (initDt o) (maxDt o) (gf o))) with (idealTime (t0 o) (initDt o) (maxDt o) (gf o) k).
  rewrite idealTime_shift, ideal_shift. replace (S k + m)%nat with (k + S m)%nat by lia. replace (S m + k)%nat with (k + S m)%nat by lia. reflexivity.
Qed.
(** Any number of restarts, at increasing stop points, when the step does not grow. *)
Fixpoint increasing (a : nat) (ks : list nat) : Prop := match ks with [] => True | k :: t => (a <= k)%nat /\ increasing k t end.
Lemma history_cons o stop k ks : history o stop (k :: ks) =
  match writeStopData o stop k with None => None | Some d => history o (Some d) ks end.
Proof. reflexivity. Qed.
Lemma history_const o ks : initDt o <= maxDt o -> gf o = 1 -> forall a t d, d = initDt o -> t = t0 o + INR a * initDt o ->
  increasing a ks -> Forall (fun k => (k <= maxN o)%nat) ks ->
  history o (Some (a, t, d)) ks = Some (Some (last ks a, t0 o + INR (last ks a) * initDt o, initDt o)).
Proof.
  intros H G. induction ks as [|k ks IH]; intros a t d -> -> I F; [reflexivity|].
  destruct I as [I1 I2]. inversion F as [|? ? F1 F2]; subst. rewrite history_cons.
  assert (W : writeStopData o (Some (a, t0 o + INR a * initDt o, initDt o)) k = Some (k, t0 o + INR k * initDt o, initDt o)).
  { unfold writeStopData, timeAtStep, timeStepSizeAtStep. cbn [makeTimeStepper maxSteps]. rewrite (proj2 (Nat.leb_le _ _) F1). cbn [startTime sq].
    set (p := SeqP (initDt o) (maxDt o) (gf o) a).
    assert (P : partialSumAt p k = INR (k - a) * initDt o).
    { replace k with (initialStep p + (k - a))%nat at 1 by (cbn; lia). rewrite partialSum_eq. cbn [p initialValue finalValue growthFactor].
      rewrite (Rsum_ext _ _ (fun _ => initDt o)) by (intros; rewrite G; apply ideal_one; exact H). rewrite Rsum_const, seq_length. reflexivity. }
    assert (A : seqAt p k = initDt o). { unfold seqAt. cbn. rewrite G, pow1, Rmult_1_r. apply Rmin_left. exact H. }
    rewrite P, A. f_equal. f_equal. f_equal. rewrite minus_INR by exact I1. ring. }
  rewrite W. etransitivity; [exact (IH k _ _ eq_refl eq_refl I2 F2)|]. destruct ks as [|k' ks']; [reflexivity|].
  assert (L : last (k :: k' :: ks') a = last (k' :: ks') k).
  { change (last (k :: k' :: ks') a) with (last (k' :: ks') a). clear. revert k'. induction ks' as [|x t IH]; intros k'; [reflexivity|]. exact (IH x). }
  rewrite L. reflexivity.
Qed.
Theorem c23_constant_step o ks k m : 0 <= initDt o <= maxDt o -> gf o = 1 -> increasing 0 (ks ++ [k]) ->
  Forall (fun k => (k <= maxN o)%nat) (ks ++ [k]) ->
  exists d, history o None (ks ++ [k]) = Some (Some d) /\ visit o (Some d) m = visit o None (S k + m)%nat.
Proof.
  intros H G I F.
  (* a fresh run behaves like one restarted at step 0 as regards stop data *)
  assert (E : history o None (ks ++ [k]) = history o (Some (0%nat, t0 o, initDt o)) (ks ++ [k])) by (destruct ks; reflexivity).
  rewrite E, (@history_const o (ks ++ [k]) ltac:(lra) G 0%nat (t0 o) (initDt o) eq_refl ltac:(cbn; ring) I F). rewrite last_last.
  eexists. split; [reflexivity|]. rewrite visit_restart, visit_fresh, G, !ideal_one by lra.
  unfold idealTime.
  rewrite (Rsum_ext (seq 0 (S m)) _ (fun _ => initDt o)) by (intros; apply ideal_one; lra).
  rewrite (Rsum_ext (seq 0 (S k + m)) _ (fun _ => initDt o)) by (intros; apply ideal_one; lra).
  rewrite !Rsum_const, !seq_length. replace (S m + k)%nat with (S k + m)%nat by lia.
  rewrite plus_INR, !S_INR. apply (f_equal2 pair); [apply (f_equal2 pair)|]; [reflexivity|ring|reflexivity].
Qed.
(** Any number of restarts: the visited times after the first restart are right as
    long as the stop data hold the right step size; the time written is always right. *)
Theorem c23_time_written o a t d k : (a <= k <= maxN o)%nat ->
  exists d', writeStopData o (Some (a, t, d)) k = Some (k, idealTime t d (maxDt o) (gf o) (k - a), d').
Proof.
  intros H. unfold writeStopData, timeAtStep, timeStepSizeAtStep. cbn [makeTimeStepper maxSteps].
  rewrite (proj2 (Nat.leb_le k (maxN o)) ltac:(lia)). eexists. f_equal. f_equal. f_equal. cbn [startTime sq]. unfold idealTime. f_equal.
  replace k with (initialStep (SeqP d (maxDt o) (gf o) a) + (k - a))%nat at 1 by (cbn; lia). apply partialSum_eq.
Qed.
Example ex_opts : opts := Opts 1 100 2 0 1000 50.
Example ex_opts_ok : okOpts ex_opts /\ (3 <= maxN ex_opts)%nat.
Proof. unfold okOpts; cbn. split; [split; lra|lia]. Qed.
Example ex_opts_const : let o := Opts 1 100 1 0 1000 50 in increasing 0 ([2; 5] ++ [7])%nat /\ Forall (fun k => (k <= maxN o)%nat) ([2; 5] ++ [7])%nat.
Proof. cbn. repeat split; try lia. repeat constructor; lia. Qed.
(** Stopping and restarting twice: growing steps 1, 2, 4, 8, ...: stopped after step 1
    (dt 2) and after step 2, the second restart uses the step 8 where the
    uninterrupted run has 4. *)
Theorem c23_twice_refuted : exists o k l d m, okOpts o /\ (k < l <= maxN o)%nat /\
  history o None [k; l] = Some (Some d) /\ visit o (Some d) m <> visit o None (S l + m)%nat.
Proof.
  exists ex_opts, 1%nat, 2%nat, (2%nat, 3, 8), 0%nat. split; [apply ex_opts_ok|]. split; [cbn; lia|].
  assert (M1 : Rmin (1 * (2 * 1)) 100 = 2) by (rewrite Rmin_left; lra).
  assert (M2 : Rmin (2 * (2 * (2 * 1))) 100 = 8) by (rewrite Rmin_left; lra).
  split.
  - unfold history, writeStopData, timeAtStep, timeStepSizeAtStep, partialSumAt, seqAt. cbn. rewrite M1, M2. repeat f_equal; lra.
  - rewrite visit_restart, visit_fresh. unfold idealTime. cbn.
    assert (M3 : Rmin (1 * 2) 100 = 2) by (rewrite Rmin_left; lra).
    assert (M4 : Rmin (2 * 2) 100 = 4) by (rewrite Rmin_left; lra). rewrite M3, M4. intros E. inversion E. lra.
Qed.
(** Without a step limit no stop data can be written for a step past 0 (assertion). *)
Theorem c23_unlimited_refuted : exists o k, okOpts o /\ maxN o = 0%nat /\ valid (makeTimeStepper o None) (iter (step (makeTimeStepper o None)) k (startTimeStepper o None)) /\
  writeStopData o None k = None.
Proof.
  exists (Opts 1 1 1 0 10 0), 1%nat. unfold okOpts, valid, writeStopData. cbn. repeat split; try lra. left. reflexivity.
Qed.
Print Assumptions c22_query_partial.
Print Assumptions c22_sum.
Print Assumptions c22_monotone.
Print Assumptions c22_capped.
Print Assumptions c22_saturated.
Print Assumptions c22_stepper.
Print Assumptions c22_terminates.
Print Assumptions c22_query_refuted.
Print Assumptions c22_cap_refuted.
Print Assumptions c22_unlimited_refuted.
Print Assumptions c23_once_partial.
Print Assumptions c23_constant_step.
Print Assumptions c23_time_written.
Print Assumptions c23_twice_refuted.
Print Assumptions c23_unlimited_refuted.
