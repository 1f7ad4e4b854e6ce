(** Properties C72-C74: checkpoints and restarts (model: RestartModel.v). *)
From Coq Require Import Reals ZArith List Bool Lia Lra.
From Verif Require Import RestartModel.
From Verif Require Sums.
Import ListNotations.
Open Scope R_scope.

(** *** C72: the checkpoints of a run *)

(** The time of step [i], anticipated by a tenth of its length. *)
Definition ahead (previousTime : R) (times : list R) (i : nat) : R :=
  nth i times 0 + (nth i times 0 - nth i (previousTime :: times) 0) / 10.

Lemma trunc_lt : forall x k, (1 <= k)%Z -> x < IZR k -> (trunc x < k)%Z.
Proof.
  intros x k Hk H. unfold trunc. destruct (Rle_dec 0 x) as [P|P].
  - pose proof (base_Int_part x) as [A _]. apply lt_IZR. lra.
  - pose proof (base_Int_part (- x)) as [_ B].
    assert (-1 < IZR (Int_part (- x))) by lra. apply lt_IZR in H0. lia.
Qed.

Lemma trunc_ge : forall x k, (0 <= k)%Z -> IZR k <= x -> (k <= trunc x)%Z.
Proof.
  intros x k Hk H. unfold trunc. apply IZR_le in Hk as Hk'.
  destruct (Rle_dec 0 x) as [P|P]; [|lra].
  pose proof (base_Int_part x) as [_ B].
  assert (IZR k < IZR (Int_part x + 1)) by (rewrite plus_IZR; lra).
  apply lt_IZR in H0. lia.
Qed.

Lemma quot_lt : forall stride a k, 0 < stride -> (1 <= k)%Z ->
  a < IZR k * stride -> (trunc (a / stride) < k)%Z.
Proof.
  intros stride a k Hs Hk H. apply trunc_lt; auto.
  apply (Rmult_lt_reg_r stride); auto. unfold Rdiv. rewrite Rmult_assoc, Rinv_l by lra. lra.
Qed.

Lemma quot_ge : forall stride a k, 0 < stride -> (0 <= k)%Z ->
  IZR k * stride <= a -> (k <= trunc (a / stride))%Z.
Proof.
  intros stride a k Hs Hk H. apply trunc_ge; auto.
  apply (Rmult_le_reg_r stride); auto. unfold Rdiv. rewrite Rmult_assoc, Rinv_l by lra. lra.
Qed.

(** A step whose quotient passes the counter is written. *)
Lemma passes : forall stride prev p t,
  (prev < trunc ((t + (t - p) / 10) / stride))%Z ->
  startStop stride prev p t = (true, (prev + 1)%Z).
Proof.
  intros stride prev p t H. unfold startStop.
  destruct (Z.leb_spec (trunc ((t + (t - p) / 10) / stride)) prev); [lia|]. simpl.
  destruct (Z.ltb_spec prev (trunc ((t + (t - p) / 10) / stride))); [reflexivity|lia].
Qed.

Lemma stays : forall stride prev p t, 0 < t ->
  (trunc ((t + (t - p) / 10) / stride) <= prev)%Z ->
  startStop stride prev p t = (false, prev).
Proof.
  intros stride prev p t Ht H. unfold startStop.
  destruct (Z.leb_spec (trunc ((t + (t - p) / 10) / stride)) prev); [|lia]. simpl.
  destruct (Rlt_dec 0 t); [reflexivity|lra].
Qed.

Lemma below : forall stride prev p t k,
  (prev < k)%Z -> (trunc ((t + (t - p) / 10) / stride) < k)%Z ->
  (snd (startStop stride prev p t) < k)%Z.
Proof.
  intros stride prev p t k H1 H2. unfold startStop.
  destruct (Z.leb_spec (trunc ((t + (t - p) / 10) / stride)) prev); simpl.
  - destruct (Rlt_dec 0 t); simpl; auto.
    destruct (Z.ltb_spec prev (trunc ((t + (t - p) / 10) / stride))); simpl; lia.
  - destruct (Z.ltb_spec prev (trunc ((t + (t - p) / 10) / stride))); simpl; lia.
Qed.

(** Every multiple of the stride above the counter is honoured: the first step
    which reaches it, up to a tenth of its own length, is written, however the
    step sizes vary. *)
Theorem c72_every_boundary :
  forall stride prev p times (k : Z) m,
    0 < stride -> (1 <= k)%Z -> (prev < k)%Z ->
    (m < length times)%nat ->
    (forall i, (i < m)%nat -> ahead p times i < IZR k * stride) ->
    IZR k * stride <= ahead p times m ->
    nth_error (writes stride prev p times) m = Some true.
Proof.
  intros stride prev p times k m Hs Hk. revert prev p m.
  induction times as [|t r IH]; intros prev p m Hp Hm Hb Hr; simpl in Hm; [lia|].
  simpl. destruct m as [|m].
  - rewrite passes; [reflexivity|].
    unfold ahead in Hr. simpl in Hr.
    apply (quot_ge stride _ k) in Hr; [lia|auto|lia].
  - pose proof (Hb 0%nat ltac:(lia)) as H0. unfold ahead in H0. simpl in H0.
    apply quot_lt in H0; auto.
    pose proof (below stride prev p t k Hp H0) as Hn.
    destruct (startStop stride prev p t) as [w prev'] eqn:E. simpl in *.
    apply IH; auto; try lia.
    intros i Hi. apply (Hb (S i) ltac:(lia)).
Qed.

(** In particular after a restart: the counter comes from the time before the
    saved step, so no later multiple of the stride is missed. *)
Theorem c72_restart :
  forall stride P times (k : Z) m,
    0 < stride -> (1 <= k)%Z -> P < IZR k * stride ->
    (m < length times)%nat ->
    (forall i, (i < m)%nat -> ahead P times i < IZR k * stride) ->
    IZR k * stride <= ahead P times m ->
    nth_error (writes stride (firstCounter stride (Some P) 0) P times) m = Some true.
Proof.
  intros stride P times k m Hs Hk HP. apply c72_every_boundary; auto.
  simpl. apply quot_lt; auto.
Qed.

(** When no step is longer than a stride, these are the only steps written. *)
Theorem c72_schedule :
  forall stride times p prev a0,
    0 < stride -> (0 <= prev)%Z ->
    IZR prev * stride <= a0 < IZR (prev + 1) * stride ->
    (forall t, In t times -> 0 < t) ->
    (forall i, (i < length times)%nat ->
       let before := match i with O => a0 | S j => ahead p times j end in
       before <= ahead p times i <= before + stride) ->
    forall i, (i < length times)%nat ->
      (nth_error (writes stride prev p times) i = Some true <->
       exists k : Z, match i with O => a0 | S j => ahead p times j end < IZR k * stride
                     <= ahead p times i).
Proof.
  intros stride times. induction times as [|t r IH]; intros p prev a0 Hs Hp Ha Ht Hi i Hl;
    simpl in Hl; [lia|].
  pose proof (Hi 0%nat ltac:(simpl; lia)) as H0. simpl in H0.
  assert (Hx : ahead p (t :: r) 0 = t + (t - p) / 10) by (unfold ahead; simpl; lra).
  rewrite Hx in H0. set (a1 := t + (t - p) / 10) in *.
  rewrite plus_IZR in Ha.
  assert (Tl : forall prev', (0 <= prev')%Z ->
            IZR prev' * stride <= a1 < IZR (prev' + 1) * stride ->
            forall j, (j < length r)%nat ->
            (nth_error (writes stride prev' t r) j = Some true <->
             exists k : Z, match j with O => a1 | S j' => ahead t r j' end < IZR k * stride
                           <= ahead t r j)).
  { intros prev' P1 P2 j Hj. apply (IH t prev' a1); auto.
    - intros t' Ht'. apply Ht. right; auto.
    - intros j' Hj'. pose proof (Hi (S j') ltac:(simpl; lia)) as H1. simpl in H1.
      destruct j' as [|j'].
      + rewrite Hx in H1. unfold ahead in *. simpl in *. exact H1.
      + unfold ahead in *. simpl in *. exact H1. }
  destruct (Rlt_le_dec a1 (IZR (prev + 1) * stride)) as [L|G].
  - (* no boundary *)
    assert (Q : startStop stride prev p t = (false, prev)).
    { apply stays; [apply Ht; left; auto|]. fold a1.
      apply quot_lt in L; auto; lia. }
    simpl. rewrite Q. destruct i as [|i].
    + simpl. split; [discriminate|]. intros [k [K1 K2]]. exfalso.
      rewrite Hx in K2.
      assert (IZR prev < IZR k) by (apply (Rmult_lt_reg_r stride); lra).
      assert (IZR k < IZR (prev + 1)) by (apply (Rmult_lt_reg_r stride); lra).
      apply lt_IZR in H. apply lt_IZR in H1. lia.
    + simpl. rewrite (Tl prev Hp ltac:(rewrite plus_IZR in *; lra) i ltac:(lia)).
      destruct i as [|i]; [rewrite Hx|]; unfold ahead; simpl; reflexivity.
  - (* one boundary *)
    assert (Q : startStop stride prev p t = (true, (prev + 1)%Z)).
    { apply passes. fold a1. apply quot_ge in G; auto; lia. }
    simpl. rewrite Q. destruct i as [|i].
    + simpl. split; [|reflexivity]. intros _. exists (prev + 1)%Z.
      rewrite Hx. rewrite plus_IZR in *. lra.
    + simpl. rewrite plus_IZR in G.
      rewrite (Tl (prev + 1)%Z ltac:(lia) ltac:(rewrite !plus_IZR; lra) i ltac:(lia)).
      destruct i as [|i]; [rewrite Hx|]; unfold ahead; simpl; reflexivity.
Qed.

(** Steps of half a second, a checkpoint every second: the start and every
    second step. *)
Example c72_schedule_example :
  writes 1 0 0 [0; 1 / 2; 1; 3 / 2; 2] = [true; false; true; false; true].
Proof.
  simpl.
  assert (Q0 : startStop 1 0 0 0 = (true, 0%Z)).
  { unfold startStop.
    assert (trunc ((0 + (0 - 0) / 10) / 1) = 0)%Z as ->.
    { assert (trunc ((0 + (0 - 0) / 10) / 1) < 1)%Z by (apply quot_lt; [lra|lia|lra]).
      assert (0 <= trunc ((0 + (0 - 0) / 10) / 1))%Z by (apply quot_ge; [lra|lia|lra]). lia. }
    destruct (Rlt_dec 0 0); [lra|reflexivity]. }
  rewrite Q0.
  rewrite (stays 1 0 0 (1 / 2)); [|lra|].
  2:{ assert (trunc ((1 / 2 + (1 / 2 - 0) / 10) / 1) < 1)%Z by (apply quot_lt; [lra|lia|lra]). lia. }
  rewrite (passes 1 0 (1 / 2) 1).
  2:{ assert (1 <= trunc ((1 + (1 - 1 / 2) / 10) / 1))%Z by (apply quot_ge; [lra|lia|lra]). lia. }
  rewrite (stays 1 (0 + 1) 1 (3 / 2)); [|lra|].
  2:{ assert (trunc ((3 / 2 + (3 / 2 - 1) / 10) / 1) < 2)%Z by (apply quot_lt; [lra|lia|lra]). lia. }
  rewrite (passes 1 (0 + 1) (3 / 2) 2).
  2:{ assert (2 <= trunc ((2 + (2 - 3 / 2) / 10) / 1))%Z by (apply quot_ge; [lra|lia|lra]). lia. }
  reflexivity.
Qed.

(** The hypotheses of the two theorems hold for the positive steps of this
    run. *)
Example c72_hypotheses_example :
  let times := [1 / 2; 1; 3 / 2; 2] in
  (forall i, (i < length times)%nat ->
     let before := match i with O => 0 | S j => ahead 0 times j end in
     before <= ahead 0 times i <= before + 1) /\
  ahead 0 times 0 < IZR 1 * 1 /\ IZR 1 * 1 <= ahead 0 times 1.
Proof.
  simpl. split; [|unfold ahead; simpl; lra].
  intros i Hi. do 4 (destruct i as [|i]; [unfold ahead; simpl; lra|]). lia.
Qed.

(** A step over several strides makes the following steps be written although
    they reach no multiple of the stride: the counter only follows by one. *)
Lemma all_written : forall stride times p prev N,
  0 < stride -> (0 <= prev)%Z -> (Z.of_nat (length times) + prev <= N)%Z ->
  (forall i, (i < length times)%nat -> IZR N * stride <= ahead p times i) ->
  forall i, (i < length times)%nat -> nth_error (writes stride prev p times) i = Some true.
Proof.
  intros stride times. induction times as [|t r IH]; intros p prev N Hs Hp HN Ha i Hi;
    simpl in Hi; [lia|].
  simpl length in HN.
  pose proof (Ha 0%nat ltac:(simpl; lia)) as H0. unfold ahead in H0. simpl in H0.
  simpl. rewrite passes.
  2:{ apply (quot_ge stride _ N) in H0; auto; lia. }
  destruct i as [|i]; [reflexivity|]. simpl.
  apply (IH t (prev + 1)%Z N); auto; try lia.
  intros j Hj. pose proof (Ha (S j) ltac:(simpl; lia)) as H1. exact H1.
Qed.

Theorem c72_extra_refuted :
  ~ (forall stride times p, 0 < stride -> (forall t, In t times -> 0 < t) ->
       (forall i, (S i < length times)%nat -> nth i times 0 < nth (S i) times 0) ->
       forall i, (S i < length times)%nat ->
         nth_error (writes stride 0 p times) (S i) = Some true ->
         exists k : Z, ahead p times i < IZR k * stride <= ahead p times (S i)).
Proof.
  intros H.
  destruct (H 1 [3; 31 / 10; 32 / 10] 0 ltac:(lra)) with (i := 1%nat) as [k [K1 K2]].
  - simpl. intros t [<-|[<-|[<-|[]]]]; lra.
  - intros i Hi. simpl in Hi. do 2 (destruct i as [|i]; [simpl; lra|]). lia.
  - simpl; lia.
  - apply (all_written 1 [3; 31 / 10; 32 / 10] 0 0 3); try lra; try lia; try (simpl; lia).
    intros i Hi. simpl in Hi. do 3 (destruct i as [|i]; [unfold ahead; simpl; lra|]). lia.
  - unfold ahead in *. simpl in *.
    assert (IZR 3 < IZR k) by lra. assert (IZR k < IZR 4) by lra.
    apply lt_IZR in H0. apply lt_IZR in H1. lia.
Qed.

(** The monitors made after a move of the surface start from 0: the next steps
    are all written, as many as there are strides in the time passed. *)
Theorem c72_loop_refuted :
  forall stride restart loop times p N,
    0 < stride -> (0 < loop)%nat -> (length times <= N)%nat ->
    (forall i, (i < length times)%nat -> INR N * stride <= ahead p times i) ->
    writes stride (firstCounter stride restart loop) p times = map (fun _ => true) times.
Proof.
  intros stride restart loop times p N Hs Hl HN Ha.
  assert (E : firstCounter stride restart loop = 0%Z).
  { unfold firstCounter. destruct restart; destruct loop; auto; lia. }
  rewrite E. clear E.
  assert (L : forall stride times prev p, length (writes stride prev p times) = length times).
  { intros s ts. induction ts as [|t r IH]; intros; simpl; auto.
    destruct (startStop s prev p0 t). simpl. rewrite IH. auto. }
  apply (nth_ext _ _ true true); [rewrite L, map_length; reflexivity|].
  intros n Hn. rewrite L in Hn.
  assert (W : nth_error (writes stride 0 p times) n = Some true).
  { apply (all_written stride times p 0 (Z.of_nat N)); auto; try lia.
    intros i Hi. rewrite <- INR_IZR_INZ. auto. }
  rewrite (nth_error_nth _ _ _ W).
  clear. revert n. induction times as [|t r IH]; intros [|n]; simpl; auto.
Qed.

Example c72_loop_example :
  writes 1 (firstCounter 1 None 1) 100 [1001 / 10; 1002 / 10; 1003 / 10] = [true; true; true].
Proof.
  rewrite (c72_loop_refuted 1 None 1 [1001 / 10; 1002 / 10; 1003 / 10] 100 3); auto; try lra; try lia.
  intros i Hi. simpl in Hi. do 3 (destruct i as [|i]; [unfold ahead; simpl; lra|]). lia.
Qed.

(** *** C73: the counters continue *)

(** The amounts which a run has to report, over the whole sequence of steps
    from a start at time [t0]: the sum of amplitude times step for the fluence,
    and of the previous outgoing flux times step for the losses. *)
Fixpoint total (t0 : R) (f : Step -> Step -> R) (x0 : Step) (xs : list Step) : R :=
  match xs with
  | [] => 0
  | x :: r => f x0 x * (sTime x - t0) + total (sTime x) f x r
  end.

Lemma run_app : forall b xs n ys m,
  run b n (xs ++ ys) m = run b (n + length xs) ys (run b n xs m).
Proof.
  induction xs as [|x r IH]; intros n ys m; simpl.
  - f_equal. lia.
  - rewrite IH. f_equal. lia.
Qed.

Lemma run_S : forall xs b b' n n' m,
  run b (S n) xs m = run b' (S n') xs m.
Proof.
  induction xs as [|x r IH]; intros b b' n n' m; simpl; auto.
Qed.

(** What an uninterrupted run reports. *)
Theorem c73_totals :
  forall xs x0 t0,
    let m := run false 0 (x0 :: xs) (mkCounters t0 0 0 0) in
    cFluence m = sAmplitude x0 * (sTime x0 - t0)
                 + total (sTime x0) (fun _ x => sAmplitude x) x0 xs /\
    cLost m = total (sTime x0) (fun y _ => sOut y) x0 xs /\
    cTime m = sTime (last xs x0).
Proof.
  assert (G : forall xs x0 n f l,
    let m := run false (S n) xs (mkCounters (sTime x0) f l (sOut x0)) in
    cFluence m = f + total (sTime x0) (fun _ x => sAmplitude x) x0 xs /\
    cLost m = l + total (sTime x0) (fun y _ => sOut y) x0 xs /\
    cTime m = sTime (last xs x0)).
  { induction xs as [|x r IH]; intros x0 n f l.
    - simpl. repeat split; lra.
    - cbn [run monitors fst Nat.eqb andb cTime cFluence cLost cFlux].
      destruct (IH x (S n) (f + sAmplitude x * (sTime x - sTime x0))
                   (l + sOut x0 * (sTime x - sTime x0))) as (A & B & C).
      cbn [total]. rewrite A, B, C. repeat split; try lra.
      destruct r as [|y r]; [reflexivity|].
      change (last (x :: y :: r) x0) with (last (y :: r) x0).
      clear. revert x y. induction r as [|z r IH]; intros x y; [reflexivity|].
      change (last (y :: z :: r) x) with (last (z :: r) x).
      change (last (y :: z :: r) x0) with (last (z :: r) x0). apply IH. }
  intros xs x0 t0. cbn [run monitors fst Nat.eqb andb cTime cFluence cLost cFlux].
  destruct (G xs x0 0%nat (0 + sAmplitude x0 * (sTime x0 - t0)) 0) as (A & B & C).
  rewrite A, B, C. repeat split; lra.
Qed.

(** A run stopped at any saved step and continued from the file ends with the
    same counters as a run which was not stopped, whatever was before (the run
    itself may be a continued one). *)
Theorem c73_continue :
  forall b xs x ys m,
    let before := run b 0 xs m in
    let saved := snd (monitors b (length xs) x before) in
    run true 0 (x :: ys) (resume saved) = run b 0 (xs ++ x :: ys) m /\
    vTime saved = sTime x.
Proof.
  intros b xs x ys m before saved. split; [|reflexivity].
  rewrite run_app. fold before. simpl Nat.add.
  subst saved. cbn [run].
  rewrite (run_S ys true b 0 (length xs)). f_equal.
Qed.

(** Any number of interruptions: each stretch starts with the step at which the
    one before was saved. *)
Fixpoint stretches (m : Counters) (b : bool) (x : Step) (l : list (list Step * Step)) (ys : list Step)
  : Counters :=
  match l with
  | [] => run b 0 (x :: ys) m
  | (xs, x') :: r =>
      stretches (resume (snd (monitors b (S (length xs)) x' (run b 0 (x :: xs) m)))) true x' r ys
  end.

Theorem c73_any_number :
  forall l m b x ys,
    stretches m b x l ys =
    run b 0 (x :: flat_map (fun s => fst s ++ [snd s]) l ++ ys) m.
Proof.
  induction l as [|[xs x'] r IH]; intros m b x ys; [reflexivity|].
  cbn [stretches flat_map fst snd]. rewrite IH.
  destruct (c73_continue b (x :: xs) x' (flat_map (fun s => fst s ++ [snd s]) r ++ ys) m)
    as [E _].
  cbn [length] in E. rewrite E. f_equal. simpl. f_equal.
  rewrite <- !app_assoc. reflexivity.
Qed.

Example c73_example :
  let x0 := mkStep 0 2 0 in let x1 := mkStep 1 2 5 in
  let x2 := mkStep 3 2 7 in let x3 := mkStep 4 1 9 in
  let m0 := mkCounters 0 0 0 0 in
  run false 0 [x0; x1; x2; x3] m0 = mkCounters 4 (0 + 2 * (0 - 0) + 2 * (1 - 0) + 2 * (3 - 1) + 1 * (4 - 3))
     (0 + 0 * (1 - 0) + 5 * (3 - 1) + 7 * (4 - 3)) 9 /\
  stretches m0 false x0 [([x1], x2)] [x3] = run false 0 [x0; x1; x2; x3] m0.
Proof.
  split; reflexivity.
Qed.

(** The xenon counted at the grain boundaries is not among the saved values:
    after a restart the amount counted before is missing. *)
Theorem c73_xenon_refuted :
  forall xs x ys p n f,
    let before := xenonRun p (xs ++ [x]) (n, f) in
    fst (xenonRun (sTime x) ys (0, sOut x)) =
    fst (xenonRun p (xs ++ x :: ys) (n, f)) - fst before.
Proof.
  assert (A : forall ys p n f, fst (xenonRun p ys (n, f)) = n + fst (xenonRun p ys (0, f))).
  { induction ys as [|y r IH]; intros p n f; simpl; [lra|].
    unfold xenonStep. simpl. rewrite (IH _ (n + f * _)), (IH _ (0 + f * _)). lra. }
  assert (B : forall xs x ys p nf, xenonRun p (xs ++ x :: ys) nf =
                xenonRun (sTime x) ys (xenonRun p (xs ++ [x]) nf)).
  { induction xs as [|y r IH]; intros x ys p nf; simpl; [reflexivity|]. apply IH. }
  assert (C : forall xs x p nf, snd (xenonRun p (xs ++ [x]) nf) = sOut x).
  { induction xs as [|y r IH]; intros x p nf; simpl; [reflexivity|]. apply IH. }
  intros xs x ys p n f before. rewrite B. subst before.
  destruct (xenonRun p (xs ++ [x]) (n, f)) as [n1 f1] eqn:E.
  pose proof (C xs x p (n, f)) as H. rewrite E in H. simpl in H. subst f1.
  rewrite (A ys (sTime x) n1). simpl. lra.
Qed.

Example c73_xenon_example :
  fst (xenonRun 0 [mkStep 1 0 5; mkStep 2 0 5] (0, 0)) = 5 /\
  fst (xenonRun 1 [mkStep 2 0 5] (0, 5)) = 5 /\
  fst (xenonRun 2 [mkStep 3 0 5] (0, 5)) = 5 /\
  fst (xenonRun 0 [mkStep 1 0 5; mkStep 2 0 5; mkStep 3 0 5] (0, 0)) = 10.
Proof. simpl. repeat split; lra. Qed.

(** The amount counted is the flux of each step over the time to the next one. *)
Theorem c73_xenon_amount :
  forall xs p n f,
    fst (xenonRun p xs (n, f)) =
    n + Sums.Rsum (seq 0 (length xs)) (fun i => nth i (f :: map sOut xs) 0 *
          (nth (S i) (p :: map sTime xs) 0 - nth i (p :: map sTime xs) 0)).
Proof.
  induction xs as [|x r IH]; intros p n f; [simpl; lra|].
  cbn [xenonRun]. unfold xenonStep. cbn [fst snd]. rewrite IH.
  cbn [length seq Sums.Rsum map]. rewrite <- seq_shift, Sums.Rsum_map. cbn [nth]. lra.
Qed.

Example c73_xenon_amount_example :
  fst (xenonRun 1 [mkStep 2 0 5; mkStep 4 0 7; mkStep 5 0 1] (10, 3)) = 10 + (3 * (2 - 1) + (5 * (4 - 2) + (7 * (5 - 4) + 0))).
Proof. rewrite c73_xenon_amount. reflexivity. Qed.

(** *** C74: the state in two and three dimensions *)

(** Exactly one process owns the point. *)
Definition inBox (b : Box) (p : Point) : Prop :=
  let '(i, j, k) := p in
  (bxs b <= i < bxs b + bxm b)%nat /\ (bys b <= j < bys b + bym b)%nat /\ (bzs b <= k < bzs b + bzm b)%nat.
Definition oneOwner (procs : list Box) (p : Point) : Prop :=
  exists r b, nth_error procs r = Some b /\ inBox b p /\
    forall r' b', nth_error procs r' = Some b' -> inBox b' p -> r' = r.

Lemma owns_iff b p : owns b p = true <-> inBox b p.
Proof.
  destruct p as [[i j] k]. unfold owns, inBox. rewrite !andb_true_iff, !Nat.leb_le, !Nat.ltb_lt. tauto.
Qed.

Lemma rankSum_none : forall procs p s,
  (forall b, In b procs -> owns b p = false) -> rankSum s procs p = 0%nat.
Proof.
  induction procs as [|b r IH]; intros p s H; simpl; auto.
  rewrite (H b) by (left; auto). rewrite IH; auto. intros b' Hb. apply H. right; auto.
Qed.

Lemma filter_none : forall procs p,
  (forall b, In b procs -> owns b p = false) -> filter (fun b => owns b p) procs = [].
Proof.
  induction procs as [|b r IH]; intros p H; simpl; auto.
  rewrite (H b) by (left; auto). apply IH. intros b' Hb. apply H. right; auto.
Qed.

Lemma rankSum_one : forall procs p r b s,
  nth_error procs r = Some b -> owns b p = true ->
  (forall r' b', nth_error procs r' = Some b' -> owns b' p = true -> r' = r) ->
  rankSum s procs p = (s + r)%nat /\ filter (fun b => owns b p) procs = [b].
Proof.
  induction procs as [|a q IH]; intros p r b s Hr Hb Hu; [destruct r; discriminate|].
  destruct r as [|r]; simpl in Hr.
  - injection Hr as ->. simpl. rewrite Hb.
    assert (N : forall b', In b' q -> owns b' p = false).
    { intros b' Hin. destruct (owns b' p) eqn:E; auto. exfalso.
      apply In_nth_error in Hin. destruct Hin as [n Hn].
      specialize (Hu (S n) b' Hn E). discriminate. }
    rewrite rankSum_none, filter_none by auto. split; [lia|reflexivity].
  - simpl. destruct (owns a p) eqn:E.
    + specialize (Hu 0%nat a eq_refl E). discriminate.
    + destruct (IH p r b (S s) Hr Hb) as [A B].
      * intros r' b' H1 H2. specialize (Hu (S r') b' H1 H2). lia.
      * rewrite A, B. split; [lia|reflexivity].
Qed.

Lemma pack_in : forall dof c l v,
  In (l, v) (pack dof c) <-> (l <= dof)%nat /\ v = c l /\ 1 / 10 ^ 16 < Rabs (c l).
Proof.
  intros dof c l v. unfold pack. rewrite filter_In, in_map_iff. split.
  - intros [[x [E Hx]] H]. injection E as -> <-. apply in_seq in Hx. cbn [snd] in H.
    destruct (Rlt_dec (1 / 10 ^ 16) (Rabs (c l))); [|discriminate]. repeat split; auto; lia.
  - intros (A & -> & B). split.
    + exists l. split; auto. apply in_seq. lia.
    + cbn [snd]. destruct (Rlt_dec (1 / 10 ^ 16) (Rabs (c l))); [reflexivity|tauto].
Qed.

Lemma assign_fold : forall (c : nat -> R) rows base l,
  (forall i v, In (i, v) rows -> v = c i) ->
  fold_left (fun f r => upd f (fst r) (snd r)) rows base l =
  if existsb (fun r => (fst r =? l)%nat) rows then c l else base l.
Proof.
  intros c rows. induction rows as [|[i v] r IH]; intros base l H; simpl; auto.
  rewrite IH by (intros; apply H; right; auto).
  destruct (existsb (fun r0 => (fst r0 =? l)%nat) r) eqn:E.
  - rewrite orb_true_r. reflexivity.
  - rewrite orb_false_r. unfold upd. destruct (Nat.eqb_spec l i) as [->|N].
    + rewrite Nat.eqb_refl. apply H. left; auto.
    + destruct (Nat.eqb_spec i l); [congruence|reflexivity].
Qed.

(** Whatever the decomposition which wrote the file and the one which reads it,
    a point with a temperature gets back its temperature and its
    concentrations, those of at most 1e-16 being replaced by 0. *)
Theorem c74_round_trip :
  forall dof procs c p temp0,
    oneOwner procs p ->
    1 / 10 ^ 16 < c p dof ->
    exists d f t,
      writePoint dof procs c p = Some d /\ readPoint dof temp0 d = Some (f, t) /\
      t = c p dof /\
      forall l, (l <= dof)%nat ->
        (1 / 10 ^ 16 < Rabs (c p l) -> f l = c p l) /\
        (Rabs (c p l) <= 1 / 10 ^ 16 -> f l = 0).
Proof.
  intros dof procs c p temp0 (r & b & Hr & Hb0 & Hu0) HT.
  assert (Hb : owns b p = true) by (apply owns_iff; exact Hb0).
  assert (Hu : forall r' b', nth_error procs r' = Some b' -> owns b' p = true -> r' = r)
    by (intros r' b' H1 H2; apply (Hu0 r' b' H1); apply owns_iff; exact H2).
  assert (HT' : 1 / 10 ^ 16 < Rabs (c p dof)).
  { assert (0 < 1 / 10 ^ 16) by (apply Rdiv_lt_0_compat; [lra|apply pow_lt; lra]).
    rewrite Rabs_right; lra. }
  destruct (rankSum_one procs p r b 0 Hr Hb Hu) as [RS FS].
  assert (PK : exists q, pack dof (c p) = q ++ [(dof, c p dof)]).
  { unfold pack. rewrite seq_app, map_app, filter_app. cbn [seq map filter snd Nat.add].
    destruct (Rlt_dec (1 / 10 ^ 16) (Rabs (c p dof))); [|lra].
    eexists. reflexivity. }
  destruct PK as [q PK].
  assert (NZ : Z.of_nat (length (pack dof (c p))) <> 0%Z).
  { rewrite PK, app_length. simpl. lia. }
  exists (Some (pack dof (c p))). do 2 eexists. split; [|split].
  - unfold writePoint. rewrite RS. simpl Nat.add. rewrite Hr.
    unfold localSize. rewrite Hb.
    destruct (Z.eqb_spec (Z.of_nat (length (pack dof (c p)))) 0); [contradiction|].
    destruct (Z.ltb_spec (Z.of_nat (length (pack dof (c p)))) 0); [lia|].
    rewrite FS, Nat2Z.id, firstn_all. reflexivity.
  - unfold readPoint. rewrite PK at 1. rewrite rev_app_distr. simpl rev.
    cbn [app]. reflexivity.
  - split; [reflexivity|]. intros l Hl.
    rewrite (assign_fold (c p)) by (intros i v Hi; apply pack_in in Hi; tauto).
    split; intros H.
    + assert (existsb (fun r0 => (fst r0 =? l)%nat) (pack dof (c p)) = true) as ->; auto.
      apply existsb_exists. exists (l, c p l). split; [apply pack_in; auto|].
      simpl. apply Nat.eqb_refl.
    + destruct (existsb (fun r0 => (fst r0 =? l)%nat) (pack dof (c p))) eqn:E.
      * exfalso. apply existsb_exists in E. destruct E as [[i v] [E1 E2]].
        apply pack_in in E1. simpl in E2. apply Nat.eqb_eq in E2. subst i. lra.
      * destruct (Nat.eqb_spec l dof) as [->|]; [lra|reflexivity].
Qed.

Example c74_round_trip_example :
  let procs := [mkBox 0 2 0 1 0 1; mkBox 0 2 1 2 0 1] in
  let c := fun (p : Point) (l : nat) => match l with 0%nat => 2 | 1%nat => 0 | _ => 300 end in
  oneOwner procs (1, 2, 0)%nat /\ 1 / 10 ^ 16 < c (1, 2, 0)%nat 2%nat /\
  rankSum 0 procs (1, 2, 0)%nat = 1%nat.
Proof.
  split; [|split].
  - exists 1%nat, (mkBox 0 2 1 2 0 1). split; [reflexivity|]. split; [unfold inBox; cbn; lia|].
    intros r b H1 H2. destruct r as [|[|r]]; simpl in H1.
    + injection H1 as <-. unfold inBox in H2. cbn in H2. lia.
    + reflexivity.
    + destruct r; discriminate.
  - simpl. lra.
  - reflexivity.
Qed.

(** The temperatures by depth with which the network is set up: every entry is
    the one of the last owned column, whatever those of the others are. *)
Lemma inner_i : forall (xs xm : nat) (g : nat -> R) f n,
  fold_left (fun f i => upd f (i - xs + 1)%nat (g i)) (seq xs xm) f (n + 1)%nat =
  if (n <? xm)%nat then g (xs + n)%nat else f (n + 1)%nat.
Proof.
  intros xs xm g f n. induction xm as [|m IH]; [reflexivity|].
  rewrite seq_S, fold_left_app. simpl. unfold upd at 1.
  replace (xs + m - xs + 1)%nat with (m + 1)%nat by lia.
  destruct (Nat.eqb_spec (n + 1) (m + 1)) as [E|E].
  - assert (n = m) by lia. subst n. destruct (Nat.ltb_spec m (S m)); [reflexivity|lia].
  - rewrite IH. destruct (Nat.ltb_spec n m), (Nat.ltb_spec n (S m)); auto; lia.
Qed.

Theorem c74_last_column :
  forall b temp base i,
    (0 < bym b)%nat -> (0 < bzm b)%nat ->
    (bxs b <= i < bxs b + bxm b)%nat ->
    readTemperatures b temp base (i - bxs b + 1)%nat =
    temp (i, bys b + bym b - 1, bzs b + bzm b - 1)%nat.
Proof.
  intros b temp base i Hy Hz Hi. unfold readTemperatures.
  destruct (bzm b) as [|z]; [lia|]. destruct (bym b) as [|y]; [lia|].
  rewrite (seq_S z (bzs b)), fold_left_app. cbn [fold_left].
  rewrite (seq_S y (bys b)), fold_left_app. cbn [fold_left].
  rewrite inner_i. destruct (Nat.ltb_spec (i - bxs b) (bxm b)); [|lia].
  replace (bxs b + (i - bxs b))%nat with i by lia.
  replace (bys b + S y - 1)%nat with (bys b + y)%nat by lia.
  replace (bzs b + S z - 1)%nat with (bzs b + z)%nat by lia. reflexivity.
Qed.

Theorem c74_temperature_refuted :
  ~ (forall b temp base i j, (0 < bzm b)%nat ->
       (bxs b <= i < bxs b + bxm b)%nat -> (bys b <= j < bys b + bym b)%nat ->
       readTemperatures b temp base (i - bxs b + 1)%nat = temp (i, j, bzs b)).
Proof.
  intros H.
  set (temp := fun p : Point => let '(_, j, _) := p in if (j =? 0)%nat then 300 else 1000).
  pose proof (H (mkBox 0 1 0 2 0 1) temp (fun _ => 0) 0%nat 0%nat
                ltac:(simpl; lia) ltac:(simpl; lia) ltac:(simpl; lia)) as E.
  rewrite c74_last_column in E by (simpl; lia). simpl in E. lra.
Qed.

(** Rectangular tables of positions and of amounts are read back as they were
    written. *)
Theorem c74_matrix :
  forall (A : Type) (m : list (list A)) n,
    m <> [] -> (forall r, In r m -> length r = n) ->
    exists d, writeMatrix m = Some d /\ readMatrix d = m.
Proof.
  intros A m n Hm Hn. unfold writeMatrix.
  destruct m as [|r0 m']; [congruence|]. set (m := r0 :: m') in *.
  assert (L0 : length r0 = n) by (apply Hn; left; auto). rewrite L0.
  assert (forallb (fun r => (n <=? length r)%nat) m = true) as ->.
  { apply forallb_forall. intros r Hr. rewrite (Hn r Hr). apply Nat.leb_refl. }
  eexists. split; [reflexivity|]. unfold readMatrix.
  assert (M : map (firstn n) m = m).
  { rewrite <- (map_id m) at 2. apply map_ext_in. intros r Hr.
    rewrite <- (Hn r Hr). apply firstn_all. }
  rewrite M. clear M L0 Hm. clearbody m. clear r0 m'.
  induction m as [|r q IH]; [reflexivity|].
  assert (Lr : length r = n) by (apply Hn; left; auto).
  simpl length. simpl concat. cbn [seq map]. f_equal.
  - simpl. rewrite <- Lr. rewrite firstn_app, Nat.sub_diag, firstn_all, firstn_O, app_nil_r.
    reflexivity.
  - rewrite <- seq_shift, map_map. rewrite <- IH at 2 by (intros; apply Hn; right; auto).
    apply map_ext. intros i. f_equal. simpl Nat.mul. rewrite skipn_app.
    rewrite skipn_all2 by lia. simpl. f_equal. lia.
Qed.

Example c74_matrix_example :
  exists d, writeMatrix [[1; 2; 3]; [4; 5; 6]]%Z = Some d /\
            readMatrix d = [[1; 2; 3]; [4; 5; 6]]%Z /\ d = (2%nat, 3%nat, [1; 2; 3; 4; 5; 6]%Z).
Proof. eexists. repeat split. Qed.

(** The first loop of a restart has the positions and the concentrations of the
    file. *)
Theorem c74_positions :
  forall nY f initial, length (lPos f) = nY ->
    lPos (startLoop nY (Some f) initial []) = lPos f /\
    lConc (startLoop nY (Some f) initial []) = lConc f.
Proof.
  intros nY f initial <-. simpl. split; [|reflexivity].
  rewrite skipn_all2 by (rewrite repeat_length; lia). apply app_nil_r.
Qed.

(** Without a file, it has as many positions as columns, all at the first point,
    and the initial concentrations. *)
Theorem c74_first :
  forall nY initial,
    length (lPos (startLoop nY None initial [])) = nY /\
    (forall j, nth j (lPos (startLoop nY None initial [])) 0%Z = 0%Z) /\
    (forall v, In v (lPos (startLoop nY None initial [])) -> v = 0%Z) /\
    lConc (startLoop nY None initial []) = initial.
Proof.
  intros nY initial. cbn [startLoop lPos lConc app]. repeat split.
  - apply repeat_length.
  - intros j. apply nth_repeat.
  - intros v H. exact (repeat_spec _ _ _ H).
Qed.

Example c74_first_example : lPos (startLoop 3 None (fun _ _ => 2) []) = [0; 0; 0]%Z.
Proof. reflexivity. Qed.

(** So have all the later ones: when the surface moves in a continued run, the
    positions and the concentrations reached meanwhile are dropped for those of
    the file, while the time goes on. *)
Theorem c74_moved_refuted :
  forall nY f initial current loop t time,
    length (lPos f) = nY -> (nY <= length current)%nat ->
    firstn nY (lPos (startLoop nY (Some f) initial current)) = lPos f /\
    lConc (startLoop nY (Some f) initial current) = lConc f /\
    startTime (S loop) (Some t) time = time /\
    firstn nY (lPos (startLoop nY None initial current)) = firstn nY current.
Proof.
  intros nY f initial current loop t time Hf Hc. simpl. repeat split.
  - rewrite <- Hf. rewrite firstn_app, firstn_all, Nat.sub_diag, firstn_O. apply app_nil_r.
  - rewrite firstn_app. replace (nY - length current)%nat with 0%nat by lia.
    rewrite firstn_O. apply app_nil_r.
Qed.

Example c74_moved_example :
  let f := mkLoop [3; 3]%Z (fun _ _ => 1) in
  firstn 2 (lPos (startLoop 2 (Some f) (fun _ _ => 0) [2; 3; 0; 0]%Z)) = [3; 3]%Z /\
  firstn 2 (lPos (startLoop 2 None (fun _ _ => 0) [2; 3; 0; 0]%Z)) = [2; 3]%Z.
Proof. split; reflexivity. Qed.

(** The grid is the one of the file when it holds a time step ... *)
Theorem c74_grid :
  forall g generated, (2 <= length g)%nat ->
    startGrid (Some (Some g)) generated = g /\
    numPoints (startGrid (Some (Some g)) generated) = Some (length g - 2)%nat.
Proof.
  intros g generated H. split; [reflexivity|]. unfold numPoints. simpl.
  destruct (Nat.ltb_spec (length g) 2); [lia|reflexivity].
Qed.

Example c74_grid_example :
  numPoints (startGrid (Some (Some [0; 0; 1; 2; 3])) [0; 0; 1]) = Some 3%nat.
Proof. reflexivity. Qed.

(** ... but a file without any (a run stopped before its first checkpoint)
    leaves no grid at all, whatever the options ask for. *)
Theorem c74_no_step_refuted :
  forall generated, startGrid (Some None) generated = [] /\
    numPoints (startGrid (Some None) generated) = None.
Proof. intros. split; reflexivity. Qed.

Print Assumptions c72_every_boundary.
Print Assumptions c72_restart.
Print Assumptions c72_schedule.
Print Assumptions c72_extra_refuted.
Print Assumptions c72_loop_refuted.
Print Assumptions c73_totals.
Print Assumptions c73_continue.
Print Assumptions c73_any_number.
Print Assumptions c73_xenon_amount.
Print Assumptions c73_xenon_refuted.
Print Assumptions c74_round_trip.
Print Assumptions c74_last_column.
Print Assumptions c74_temperature_refuted.
Print Assumptions c74_matrix.
Print Assumptions c74_positions.
Print Assumptions c74_first.
Print Assumptions c74_moved_refuted.
Print Assumptions c74_grid.
Print Assumptions c74_no_step_refuted.
