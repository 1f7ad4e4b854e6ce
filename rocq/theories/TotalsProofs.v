(** Totals: specification by individual compositions, and proofs. *)
From Verif Require Export TotalsModel.
Set Implicit Arguments.
Open Scope R_scope.

(** ** Specification. [mom i k]: the moment of cluster [i] on axis [k]. *)
Definition reconstructed (f : nat -> R) (mom : nat -> nat -> R) (i : nat) (c : tcl) (x : list Z) : R :=
  f i + Rsum (seq 0 (length (taxes c))) (fun k => mom i k * dist (axis c k) (nth k x 0%Z)).
(** Sum over all compositions with at least [minSize] of species [s]. *)
Definition compositionSum (cs : list tcl) f mom (s : nat) (minSize : Z) (w : tcl -> list Z -> R) : R :=
  Rsum (seq 0 (length cs)) (fun i => let c := nth i cs tdummy in
    Rsum (comps (taxes c)) (fun x => if (minSize <=? nth s x 0)%Z then reconstructed f mom i c x * w c x else 0)).
Definition proper (ns : nat) (cs : list tcl) : Prop :=
  Forall (fun c => length (taxes c) = ns /\ Forall (fun r => 0 <= fst r < snd r)%Z (taxes c)) cs.
Definition uncut (minSize : Z) (s : nat) (c : tcl) : Prop := (minSize <= fst (axis c s))%Z.

(** ** Proofs. *)
Lemma from_spec m r (g : Z -> R) : (fst r < snd r)%Z ->
  Rsum (from m r) g = Rsum (inter r) (fun j => if (m <=? j)%Z then g j else 0).
Proof.
  intros Hr. unfold from. destruct (Z_le_gt_dec m (fst r)) as [H|H].
  - rewrite Z.max_r by lia. destruct r as [a b]. cbn [fst snd] in *. apply Rsum_ext. intros x Hx. apply inter_In in Hx. cbn in Hx.
    destruct (Z.leb_spec m x); [reflexivity|lia].
  - rewrite Z.max_l by lia. destruct r as [a b]. cbn [fst snd] in *.
    assert (E : inter (a, b) = inter (a, Z.min m b) ++ inter (m, b)).
    { unfold inter, len. cbn [fst snd].
      replace (Z.to_nat (b - a)) with (Z.to_nat (Z.min m b - a) + Z.to_nat (b - m))%nat by lia.
      rewrite seq_app, map_app. f_equal. cbn [plus].
      destruct (Z_le_gt_dec m b) as [Hm|Hm]; [|replace (Z.to_nat (b - m)) with 0%nat by lia; reflexivity].
      rewrite Z.min_l by lia. rewrite <- (Nat.add_0_r (Z.to_nat (m - a))).
      assert (G : forall k s, map (fun n => (a + Z.of_nat n)%Z) (seq (Z.to_nat (m - a) + s) k) = map (fun n => (m + Z.of_nat n)%Z) (seq s k)).
      { induction k as [|k IH]; intros s; [reflexivity|]. cbn [seq map]. f_equal; [lia|].
        replace (S (Z.to_nat (m - a) + s)) with (Z.to_nat (m - a) + S s)%nat by lia. apply IH. }
      apply G. }
    rewrite E, Rsum_app. rewrite (Rsum_zero (inter (a, Z.min m b))).
    + rewrite Rplus_0_l. apply Rsum_ext. intros x Hx. apply inter_In in Hx. cbn in Hx. destruct (Z.leb_spec m x); [reflexivity|lia].
    + intros x Hx. apply inter_In in Hx. cbn in Hx. destruct (Z.leb_spec m x); [lia|reflexivity].
Qed.

Lemma sum_inter_shift r (g : Z -> R) : Rsum (inter r) g = Rsum (seq 0 (Z.to_nat (len r))) (fun n => g (fst r + Z.of_nat n)%Z).
Proof. unfold inter. apply Rsum_map. Qed.
Lemma sum_INR n : Rsum (seq 0 n) (fun k => INR k) = INR n * (INR n - 1) / 2.
Proof. induction n as [|n IH]; [cbn; lra|]. rewrite Rsum_seq_S, IH, S_INR. lra. Qed.
Lemma dist_sum r : (fst r < snd r)%Z -> Rsum (inter r) (dist r) = 0.
Proof.
  intros Hr. unfold dist. destruct (Z.eqb_spec (len r) 1) as [E|E]; [apply Rsum_0|].
  rewrite Rsum_div, Rsum_scal, Rsum_minus.
  assert (HL : (0 < len r)%Z) by (unfold len; lia).
  rewrite !sum_inter_shift. rewrite Rsum_const, seq_length.
  rewrite (Rsum_ext _ (fun n => IZR (fst r + Z.of_nat n)) (fun n => IZR (fst r) + INR n)).
  2:{ intros n _. rewrite plus_IZR, INR_IZR_INZ. reflexivity. }
  rewrite Rsum_plus, Rsum_const, seq_length, sum_INR.
  rewrite INR_IZR_INZ, Z2Nat.id by lia. unfold len. rewrite minus_IZR.
  replace (2 * _) with 0; [unfold Rdiv; ring|]. field.
Qed.

(** A quantity of two different axes. *)
Lemma comps_two rs k l r r' (q : Z -> R) : Forall (fun r => fst r < snd r)%Z rs -> k <> l ->
  nth_error rs k = Some r -> nth_error rs l = Some r' ->
  Rsum (comps rs) (fun x => q (nth k x 0%Z) * dist r' (nth l x 0%Z)) = 0.
Proof.
  revert k l. induction rs as [|r0 rs IH]; intros k l HF Hkl Hk Hl; [destruct k; discriminate|].
  inversion HF as [|? ? H1 H2]; subst. cbn [comps]. rewrite Rsum_flat_map.
  destruct k as [|k], l as [|l]; [congruence| | |].
  - injection Hk as ->. cbn [nth_error] in Hl. apply Rsum_zero. intros x _. rewrite Rsum_map. cbn [nth]. rewrite Rsum_scal.
    rewrite (comps_axis _ (dist r') H2 Hl), dist_sum; [ring|].
    rewrite Forall_forall in H2. apply H2. eapply nth_error_In; eauto.
  - injection Hl as ->. cbn [nth_error] in Hk.
    rewrite (Rsum_ext _ _ (fun x => Rsum (comps rs) (fun y => q (nth k y 0%Z)) * dist r' x)).
    + rewrite Rsum_scal, dist_sum by exact H1. ring.
    + intros x _. rewrite Rsum_map. cbn [nth]. rewrite Rsum_scal_r. reflexivity.
  - apply Rsum_zero. intros x _. rewrite Rsum_map. cbn [nth]. apply IH; auto.
Qed.

Section CLUSTER.
Variables (f : nat -> R) (mom : nat -> nat -> R) (ns : nat).
Variable i : nat.
Variable c : tcl.
Hypothesis HL : length (taxes c) = ns.
Hypothesis HP : Forall (fun r => 0 <= fst r < snd r)%Z (taxes c).
Lemma pos_axes : Forall (fun r => fst r < snd r)%Z (taxes c).
Proof using HL HP. eapply Forall_impl; [|exact HP]. cbn. lia. Qed.
Lemma axis_nth k : (k < ns)%nat -> nth_error (taxes c) k = Some (axis c k).
Proof using HL. intros H. unfold axis. apply nth_error_nth'. lia. Qed.
Lemma axis_pos k : (k < ns)%nat -> (0 <= fst (axis c k) < snd (axis c k))%Z.
Proof using HL HP. intros H. rewrite Forall_forall in HP. apply HP. eapply nth_error_In. apply axis_nth. exact H. Qed.

(** The exact sum over the compositions: the code's value plus the contribution
    of the moment of the counted axis. *)
Lemma cluster_sum s m (w : Z -> R) : (s < ns)%nat ->
  Rsum (comps (taxes c)) (fun x => if (m <=? nth s x 0)%Z then reconstructed f mom i c x * w (nth s x 0%Z) else 0) =
  Rsum (from m (axis c s)) (fun j => f i * w j * factorOf c s) +
  mom i s * (factorOf c s * Rsum (from m (axis c s)) (fun j => w j * dist (axis c s) j)).
Proof using HL HP.
  intros Hs. pose proof pos_axes as HF. pose proof (axis_nth Hs) as Hn. destruct (axis_pos Hs) as [Hp0 Hp1].
  set (u := fun j => if (m <=? j)%Z then w j else 0).
  rewrite (Rsum_ext _ _ (fun x => f i * u (nth s x 0%Z) + Rsum (seq 0 ns) (fun k => mom i k * (u (nth s x 0%Z) * dist (axis c k) (nth k x 0%Z))))).
  2:{ intros x _. unfold u. destruct (Z.leb_spec m (nth s x 0%Z)).
      - unfold reconstructed. rewrite HL. rewrite Rmult_plus_distr_r. f_equal. rewrite <- Rsum_scal_r. apply Rsum_ext. intros; ring.
      - rewrite Rsum_zero; [ring|]. intros; ring. }
  rewrite Rsum_plus, Rsum_scal, (comps_axis _ u HF Hn). rewrite Rsum_swap.
  rewrite (@Rsum_single _ _ _ s); [|apply seq_NoDup|apply in_seq; lia|].
  - rewrite Rsum_scal. rewrite (comps_axis _ (fun j => u j * dist (axis c s) j) HF Hn).
    rewrite !from_spec by exact Hp1. fold (factorOf c s). f_equal.
    + rewrite <- !Rsum_scal. apply Rsum_ext. intros j _. unfold u. destruct (m <=? j)%Z; unfold factorOf, Rdiv; ring.
    + f_equal. f_equal. apply Rsum_ext. intros j _. unfold u. destruct (m <=? j)%Z; ring.
  - intros k Hk Hks. apply in_seq in Hk. rewrite Rsum_scal. rewrite (@comps_two (taxes c) s k (axis c s) (axis c k) u HF (not_eq_sym Hks) Hn); [ring|]. apply axis_nth. lia.
Qed.
Lemma uncut_zero s m : (s < ns)%nat -> uncut m s c -> Rsum (from m (axis c s)) (fun j => 1 * dist (axis c s) j) = 0.
Proof using HL HP.
  intros Hs HU. destruct (axis_pos Hs) as [Hp0 Hp1]. rewrite from_spec by exact Hp1.
  rewrite <- (dist_sum _ Hp1). apply Rsum_ext. intros j Hj. apply inter_In in Hj. unfold uncut in HU. destruct (Z.leb_spec m j); [ring|lia].
Qed.
End CLUSTER.

(** ** getTotals. *)
Lemma chain_at vs quantities ms x rad c dst k :
  chain vs quantities ms x rad c dst k =
  if (k <? length ms)%nat then
    let '(s, m) := nth k quantities (0%nat, 0%Z) in tqMethod vs (nth k (rev ms) QTotal) s m x rad c (dst k)
  else dst k.
Proof.
  induction ms as [|q ms IH]; [reflexivity|]. cbn [chain length rev].
  destruct (nth (length ms) quantities (0%nat, 0%Z)) as [s0 m0] eqn:E0. unfold upd.
  destruct (Nat.eqb_spec k (length ms)) as [->|Hk].
  - rewrite IH. destruct (Nat.ltb_spec (length ms) (length ms)); [lia|]. destruct (Nat.ltb_spec (length ms) (S (length ms))); [|lia].
    rewrite E0, app_nth2; rewrite rev_length; [|lia]. rewrite Nat.sub_diag. reflexivity.
  - rewrite IH. destruct (Nat.ltb_spec k (length ms)), (Nat.ltb_spec k (S (length ms))); try lia; [|reflexivity].
    rewrite app_nth1 by (rewrite rev_length; lia). reflexivity.
Qed.
Lemma fold_sum A (l : list A) (g : A -> R) a : fold_left (fun acc j => acc + g j) l a = a + Rsum l g.
Proof. revert a. induction l as [|x l IH]; intros a; cbn; [ring|]. rewrite IH. ring. Qed.
(** What one method adds. *)
Definition tqValue vs (q : tq) s m (x rad : R) c : R := tqMethod vs q s m x rad c 0.
Lemma tqMethod_add vs q s m x rad c a : tqMethod vs q s m x rad c a = a + tqValue vs q s m x rad c.
Proof.
  unfold tqValue, tqMethod, tqBase. destruct q; rewrite ?fold_sum; try ring.
  destruct vs as [|v vs]; [ring|]. destruct (0 <? fst (axis c v))%Z; rewrite ?fold_sum; ring.
Qed.
Lemma getTotals_at cs f vs quantities ms k : (k < length ms)%nat ->
  getTotalsImpl cs f vs quantities ms k =
  let '(s, m) := nth k quantities (0%nat, 0%Z) in
  reduce cs (fun i c => tqValue vs (nth k ms QTotal) s m (f i) (radius c) c).
Proof.
  intros Hk. unfold getTotalsImpl, reduce. destruct (nth k quantities (0%nat, 0%Z)) as [s m] eqn:E.
  assert (G : forall l dst, fold_left (fun dst i => let c := nth i cs tdummy in chain vs quantities (rev ms) (f i) (radius c) c dst) l dst k
    = dst k + Rsum l (fun i => tqValue vs (nth k ms QTotal) s m (f i) (radius (nth i cs tdummy)) (nth i cs tdummy))).
  { induction l as [|i l IH]; intros dst; cbn [fold_left Rsum]; [ring|]. rewrite IH. cbv zeta. rewrite chain_at, rev_length, rev_involutive, E.
    destruct (Nat.ltb_spec k (length ms)); [|lia]. rewrite tqMethod_add. ring. }
  rewrite G. ring.
Qed.
