(** Dissociation and re-solution: microscopic meaning and conservation. *)
From Verif Require Export Conservation.
Open Scope R_scope.

Section DISS.
Variables (r : dreact) (y : drx) (conc : nat -> R).
Hypothesis G : goodDR r.
Hypothesis Hna : yna y = dna r.
Hypothesis Hcf : dcf y = dissCoefs r.
Notation n := (dna r).

(** Microscopic events: parent size, dummy size (0), product sizes on each axis. *)
Definition dmicro : list (list quad) :=
  comps (fun i => balanced (dcl r i) (dcl2 r i) (dp1 r i) (dp2 r i)) n.
Definition concP (t : list quad) : R :=
  local n (conc (rp y)) (fun i => cval conc (mr y i)) (dcl r) (fun i => qa (at_axis t i)).
Definition damount (s : nat) (q : quad) : Z :=
  match s with 0%nat => qa q | 1%nat => qc q | _ => qd q end.
Definition dsrange (s i : nat) : ival :=
  match s with 0%nat => dcl r i | 1%nat => dp1 r i | _ => dp2 r i end.
Definition ddev (s k : nat) (t : list quad) : R :=
  match k with O => 1 | S i => IZR (damount s (at_axis t i)) - imean (dsrange s i) end.

Definition XP : nat -> R := mom (conc (rp y)) (fun i => cval conc (mr y i)).

Lemma dfluxSum_lin s k : dfluxSum y conc s k =
  drate y * Rsum (seq 0 (S n)) (fun a => dcf y (Co a 0 s k) * XP a).
Proof.
  unfold dfluxSum, yaxes. rewrite Hna, Rsum_seq_0, Rmult_comm. unfold XP, cR, cmR. cbn [mom]. reflexivity.
Qed.

Lemma dspec_micro a s k : (a <= n)%nat -> (k <= n)%nat ->
  dslotd r s k * dspecCoef r a s k =
  Rsum dmicro (fun t => Rprod (seq 0 n) (fun i => wt a i (dcl r i) (qa (at_axis t i))) * ddev s k t).
Proof.
  intros Ha Hk. pose proof (dslotd_nz r G s k) as Hd.
  unfold dspecCoef. replace (dslotd r s k * (_ / dslotd r s k))
    with (Rprod (daxes r) (fun i => daxsum r i (fun c d p1 p2 =>
     wt a i (dcl r i) c * dslotw r s k i c d p1 p2))) by (field; exact Hd).
  unfold daxes, dmicro.
  rewrite (Rprod_ext _ _ (fun i => Rsum (balanced (dcl r i) (dcl2 r i) (dp1 r i) (dp2 r i))
     (fun q => wt a i (dcl r i) (qa q) * dslotw r s k i (qa q) (qb q) (qc q) (qd q)))).
  2:{ intros i _. unfold daxsum. rewrite msum_balanced. apply Rsum_ext. intros [[[u v] w] z] _. reflexivity. }
  rewrite <- (comps_fubini _ n (fun i q => wt a i (dcl r i) (qa q) * dslotw r s k i (qa q) (qb q) (qc q) (qd q))).
  apply Rsum_ext. intros t _. rewrite !Rprod_mult. f_equal.
  destruct k as [|k].
  - apply Rprod_one. intros i _. apply dslotw_1. discriminate.
  - rewrite (@Rprod_pt1 _ k).
    + unfold ddev, damount, dsrange, dslotw. destruct s as [|[|s]]; apply wt_S.
    + apply seq_NoDup.
    + apply in_seq. lia.
    + intros j _ Hj. apply dslotw_1. congruence.
Qed.

Lemma dflux_micro s k : (k <= n)%nat -> (s < 3)%nat -> (k = 0%nat -> s = 0%nat) ->
  dslotd r s k * dfluxSum y conc s k = drate y * Rsum dmicro (fun t => concP t * ddev s k t).
Proof.
  intros Hk Hs Hk0. rewrite dfluxSum_lin, Hcf.
  rewrite <- Rmult_assoc, (Rmult_comm (dslotd r s k)), Rmult_assoc. f_equal. rewrite <- Rsum_scal.
  transitivity (Rsum (seq 0 (S n)) (fun a => Rsum dmicro (fun t =>
     XP a * Rprod (seq 0 n) (fun i => wt a i (dcl r i) (qa (at_axis t i))) * ddev s k t))).
  - apply Rsum_ext. intros a Ha. apply in_seq in Ha.
    transitivity (XP a * (dslotd r s k * dspecCoef r a s k)).
    + rewrite (dcoef_correct r G a s k) by (assumption || lia). ring.
    + rewrite dspec_micro, <- Rsum_scal by lia. apply Rsum_ext. intros t _. ring.
  - rewrite Rsum_swap. apply Rsum_ext. intros t _. unfold concP. rewrite local_mom.
    rewrite <- Rsum_scal_r. apply Rsum_ext. intros a _. unfold XP. ring.
Qed.

Lemma dmicro_balanced t i : In t dmicro -> (i < n)%nat ->
  (qa (at_axis t i) + qb (at_axis t i) = qc (at_axis t i) + qd (at_axis t i))%Z /\
  In (qb (at_axis t i)) (pts (dcl2 r i)).
Proof using.
  clear Hna Hcf. intros H Hi. apply comps_In in H as [_ H]. specialize (H i Hi).
  destruct (at_axis t i) as [[[u v] w] z]. apply balanced_In in H as (_ & H2 & _ & _ & H). split; assumption.
Qed.
Lemma dmicro_range s t i : In t dmicro -> (i < n)%nat -> In (damount s (at_axis t i)) (pts (dsrange s i)).
Proof using.
  clear Hna Hcf. intros H Hi. apply comps_In in H as [_ H]. specialize (H i Hi).
  destruct (at_axis t i) as [[[u v] w] z]. apply balanced_In in H as (H1 & H2 & H3 & H4 & _).
  destruct s as [|[|s]]; assumption.
Qed.
Lemma dsingle_dev s k t : In t dmicro -> (k < n)%nat -> ilen (dsrange s k) = 1%Z -> ddev s (S k) t = 0.
Proof using.
  clear Hna Hcf. intros Ht Hk Hl. pose proof (dmicro_range s t k Ht Hk) as H. apply pts_In in H.
  unfold ddev, imean, ilen in *.
  replace (damount s (at_axis t k)) with (ib (dsrange s k)) by lia.
  replace (ie (dsrange s k) - 1 + ib (dsrange s k))%Z with (2 * ib (dsrange s k))%Z by lia.
  rewrite mult_IZR. lra.
Qed.
End DISS.

Record inNetD (N : net) (r : dreact) (y : drx) : Prop := {
  j_na : yna y = dna r;
  j_cf : dcf y = dissCoefs r;
  j_rp : In (rp y) (ncl N);
  j_pid : forall p, In (dpid y p) (ncl N);
  j_mr : forall k, mr y k = nmid N (rp y) k;
  j_mp : forall p k, dmp y p k = nmid N (dpid y p) k;
  j_vr : vr y = nvol N (rp y);
  j_vp : forall p, dvp y p = nvol N (dpid y p);
  j_cl : forall k, dcl r k = niv N (rp y) k;
  j_cl2 : forall k, dcl2 r k = Iv 0 1;
  j_p1 : forall k, dp1 r k = niv N (dpid y 0) k;
  j_p2 : forall k, dp2 r k = niv N (dpid y 1) k;
  j_disp : forall k, ddisp r k = ndisp N (rp y) k;
  j_d1 : forall k, dd1 r k = ndisp N (dpid y 0) k;
  j_d2 : forall k, dd2 r k = ndisp N (dpid y 1) k
}.

Section CONS.
Variables (N : net) (r : dreact) (y : drx) (conc : nat -> R).
Hypothesis WN : wfNet N.
Hypothesis G : goodDR r.
Hypothesis I : inNetD N r y.
Notation n := (dna r).
Notation Fl := (dfluxSum y conc).
Notation M f := (drate y * Rsum (dmicro r) (fun t => concP r y conc t * f t)).

Lemma DM_0 f : (forall t, In t (dmicro r) -> f t = 0) -> M f = 0.
Proof. intros H. rewrite Rsum_zero; [ring|]. intros t Ht. rewrite H by exact Ht. ring. Qed.

Lemma content_dissFlux k : (k < n)%nat ->
  content N k (acc (dissFlux y conc)) =
  - (imean (dcl r k) * Fl 0 0 + ind (valid (mr y k)) * (ddisp r k * Fl 0 (S k)))
  + (imean (dp1 r k) * Fl 0 0 + ind (valid (dmp y 0 k)) * (dd1 r k * Fl 1 (S k)))
  + (imean (dp2 r k) * Fl 0 0 + ind (valid (dmp y 1 k)) * (dd2 r k * Fl 2 (S k))).
Proof.
  intros Hk. unfold dissFlux.
  change [(rp y, - (Fl 0 0 / vr y)); (dpid y 0, Fl 0 0 / dvp y 0); (dpid y 1, Fl 0 0 / dvp y 1)]
    with ([(rp y, - (Fl 0 0 / vr y))] ++ [(dpid y 0, Fl 0 0 / dvp y 0)] ++ [(dpid y 1, Fl 0 0 / dvp y 1)]).
  rewrite !(content_app N), !(content_flat_map N).
  rewrite !(content_cl N WN) by apply I.
  rewrite (Rsum_ext (yaxes y) _ (fun k' =>
     content N k (acc (gadd (mr y k') (- (Fl 0 (S k') / vr y)))) +
     content N k (acc (gadd (dmp y 0 k') (Fl 1 (S k') / dvp y 0))) +
     content N k (acc (gadd (dmp y 1 k') (Fl 2 (S k') / dvp y 1))))).
  2:{ intros k' _. rewrite !(content_app N). ring. }
  rewrite !Rsum_plus. unfold yaxes. rewrite (j_na _ _ _ I).
  assert (HM : forall (m : nat -> option nat) c g, (forall k, m k = nmid N c k) -> In c (ncl N) ->
     Rsum (seq 0 n) (fun k' => content N k (acc (gadd (m k') (g k')))) =
     ind (valid (m k)) * (nvol N c * ndisp N c k * g k)).
  { intros m c g Hm Hc. rewrite (Rsum_ext _ _ (fun k' => content N k (acc (gadd (nmid N c k') (g k')))))
      by (intros; rewrite Hm; reflexivity). rewrite Hm. apply content_axis; assumption. }
  rewrite (HM (mr y) (rp y) (fun k' => - (Fl 0 (S k') / vr y)) (j_mr _ _ _ I) (j_rp _ _ _ I)).
  rewrite (HM (dmp y 0) (dpid y 0) (fun k' => Fl 1 (S k') / dvp y 0) (j_mp _ _ _ I 0%nat) (j_pid _ _ _ I 0%nat)).
  rewrite (HM (dmp y 1) (dpid y 1) (fun k' => Fl 2 (S k') / dvp y 1) (j_mp _ _ _ I 1%nat) (j_pid _ _ _ I 1%nat)).
  rewrite (j_vr _ _ _ I), !(j_vp _ _ _ I), !(j_cl _ _ _ I), !(j_p1 _ _ _ I), !(j_p2 _ _ _ I),
    !(j_disp _ _ _ I), !(j_d1 _ _ _ I), !(j_d2 _ _ _ I).
  assert (HV := n_vol N WN). field. repeat split; apply HV.
Qed.

Theorem diss_conserved k : (k < n)%nat -> content N k (acc (dissFlux y conc)) = 0.
Proof.
  intros Hk. rewrite content_dissFlux by exact Hk.
  pose proof (j_na _ _ _ I) as Hna. pose proof (j_cf _ _ _ I) as Hcf.
  assert (H00 : Fl 0 0 = M (fun _ => 1)).
  { pose proof (dflux_micro r y conc G Hna Hcf 0%nat 0%nat ltac:(lia) ltac:(lia) ltac:(auto)) as H.
    cbn [dslotd] in H. rewrite Rmult_1_l in H. rewrite H. f_equal. }
  assert (HS : forall s, (s < 3)%nat -> dslotd r s (S k) * Fl s (S k) = M (ddev r s (S k))).
  { intros s Hs. apply dflux_micro; try assumption; lia. }
  assert (HA : forall s (m : option nat) c, (s < 3)%nat -> m = nmid N c k -> niv N c k = dsrange r s k ->
     ind (valid m) * (dslotd r s (S k) * Fl s (S k)) = M (ddev r s (S k))).
  { intros s m c Hs Hm Hr. rewrite (HS s Hs). destruct m as [d|]; cbn [valid]; [change (ind true) with 1; ring|].
    rewrite DM_0; [ring|]. intros t Ht. apply dsingle_dev; [exact Ht|exact Hk|].
    rewrite <- Hr. apply WN. congruence. }
  pose proof (HA 0%nat (mr y k) (rp y) ltac:(lia) (j_mr _ _ _ I k) (eq_sym (j_cl _ _ _ I k))) as E0.
  pose proof (HA 1%nat (dmp y 0 k) (dpid y 0) ltac:(lia) (j_mp _ _ _ I _ k) (eq_sym (j_p1 _ _ _ I k))) as E1.
  pose proof (HA 2%nat (dmp y 1 k) (dpid y 1) ltac:(lia) (j_mp _ _ _ I _ k) (eq_sym (j_p2 _ _ _ I k))) as E2.
  cbn [dslotd] in E0, E1, E2. rewrite E0, E1, E2, H00.
  transitivity (M (fun t => - (imean (dcl r k) + ddev r 0 (S k) t)
     + (imean (dp1 r k) + ddev r 1 (S k) t) + (imean (dp2 r k) + ddev r 2 (S k) t))).
  - rewrite (Rsum_ext (dmicro r) (fun t => _ * (- (imean _ + _) + _ + _))
      (fun t => - imean (dcl r k) * (concP r y conc t * 1)
        + -1 * (concP r y conc t * ddev r 0 (S k) t)
        + imean (dp1 r k) * (concP r y conc t * 1) + (concP r y conc t * ddev r 1 (S k) t)
        + imean (dp2 r k) * (concP r y conc t * 1) + (concP r y conc t * ddev r 2 (S k) t))) by (intros; ring).
    rewrite !Rsum_plus, !Rsum_scal. ring.
  - apply DM_0. intros t Ht. destruct (dmicro_balanced r t k Ht Hk) as [Hb Hd].
    rewrite (j_cl2 _ _ _ I) in Hd. apply pts_In in Hd. cbn [ib ie] in Hd.
    unfold ddev, damount, dsrange.
    assert (Hq : (qa (at_axis t k) = qc (at_axis t k) + qd (at_axis t k))%Z) by lia.
    apply (f_equal IZR) in Hq. rewrite plus_IZR in Hq. lra.
Qed.
End CONS.
