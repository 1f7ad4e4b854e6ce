(** Concrete reactions used by the examples and refutations. *)
From Verif Require Export DissConservation.
Open Scope R_scope.

Lemma goodPR_intro r : noProduct r = false ->
  (forall i, (i < na r)%nat -> exists q, In q (balanced (cl1 r i) (cl2 r i) (q1 r i) (q2 r i))) ->
  (same r = true -> forall i, q1 r i = q2 r i /\ pdisp1 r i = pdisp2 r i) ->
  (forall i, disp1 r i <> 0 /\ disp2 r i <> 0 /\ pdisp1 r i <> 0 /\ pdisp2 r i <> 0) -> goodPR r.
Proof.
  intros Hn Hb Hs Hd. constructor; try (intros i; apply Hd).
  - intros i _. unfold width. rewrite Hn. apply overlapWidth_msum.
  - intros i Hi. unfold width. rewrite Hn. apply Rgt_not_eq. apply overlapWidth_pos.
    destruct (Hb i Hi) as [[[[u v] w] z] H]. apply balanced_In in H. exists u, v, w, z. exact H.
  - exact Hs.
Qed.

Lemma goodDR_intro r :
  (forall i, (i < dna r)%nat -> exists q, In q (balanced (dcl r i) (dcl2 r i) (dp1 r i) (dp2 r i))) ->
  (forall i, ddisp r i <> 0 /\ dd1 r i <> 0 /\ dd2 r i <> 0) -> goodDR r.
Proof.
  intros Hb Hd. constructor; try (intros i; apply Hd).
  intros i Hi. unfold daxsum. rewrite <- overlapWidth_msum. apply Rgt_not_eq. apply overlapWidth_pos.
  destruct (Hb i Hi) as [[[[u v] w] z] H]. apply balanced_In in H. exists u, v, w, z. exact H.
Qed.

(** ** One axis: X_1 + X_[2,4) -> X_[3,5), the reverse dissociation
    X_[3,5) -> X_1 + X_[2,4). Clusters 0, 1, 2; moment ids 3 (cluster 1), 4 (cluster 2). *)
Definition oneIv (c : nat) : ival := match c with 0%nat => Iv 1 2 | 1%nat => Iv 2 4 | 2%nat => Iv 3 5 | _ => Iv 0 1 end.
Definition oneMid (c k : nat) : option nat :=
  match c, k with 1%nat, 0%nat => Some 3%nat | 2%nat, 0%nat => Some 4%nat | _, _ => None end.
Definition oneVol (c : nat) : R := match c with 0%nat => 1 | _ => 2 end.
Definition oneNet : net := NT [0; 1; 2]%nat oneVol
  (fun c k => match k with O => oneIv c | _ => Iv 0 1 end) (fun _ _ => 1 / 4) oneMid.

Definition oneR : preact := PR 1 (fun k => niv oneNet 0 k) (fun k => niv oneNet 1 k) (fun k => niv oneNet 2 k)
  (fun _ => Iv 0 1) (fun _ => 1 / 4) (fun _ => 1 / 4) (fun _ => 1 / 4) (fun _ => 1 / 4) true false false.
Definition oneXof (C : cidx -> R) : prx := PX 1 0 1 (oneMid 0) (oneMid 1)
  (fun p => match p with O => Some 2%nat | _ => None end) (fun _ => oneMid 2)
  1 2 (fun _ => 2) 1 C.
Definition oneX : prx := oneXof (prodCoefs oneR).
Definition oneD : dreact := DR 1 (fun k => niv oneNet 2 k) (fun _ => Iv 0 1) (fun k => niv oneNet 0 k)
  (fun k => niv oneNet 1 k) (fun _ => 1 / 4) (fun _ => 1 / 4) (fun _ => 1 / 4).
Definition oneYof (C : cidx -> R) : drx := DX 1 2 (oneMid 2) (fun p => match p with O => 0%nat | _ => 1%nat end)
  (fun p => match p with O => oneMid 0 | _ => oneMid 1 end) 2
  (fun p => match p with O => 1 | _ => 2 end) 1 C.
Definition oneY : drx := oneYof (dissCoefs oneD).

Lemma oneIds : wfIds (fun c => In c [0; 1; 2]%nat) oneMid.
Proof.
  constructor.
  - intros c k c' k' d. unfold oneMid.
    destruct c as [|[|[|c]]], k as [|k], c' as [|[|[|c']]], k' as [|k']; intros H H';
      try discriminate; try (split; reflexivity); congruence.
  - intros c k d. unfold oneMid. destruct c as [|[|[|c]]], k as [|k]; intros H; try discriminate;
      inversion H; subst; cbn; lia.
Qed.

Lemma oneWf : wfNet oneNet.
Proof.
  constructor.
  - cbn. repeat constructor; cbn; lia.
  - exact oneIds.
  - intros c. unfold oneNet, oneVol; cbn [nvol]. destruct c; lra.
  - intros c k H. cbn [niv nmid oneNet] in *. destruct k as [|k]; [|reflexivity].
    destruct c as [|[|[|c]]]; cbn in *; try discriminate; try reflexivity.
Qed.

Lemma oneGood : goodPR oneR.
Proof.
  apply goodPR_intro.
  - reflexivity.
  - intros [|i] Hi; cbn in Hi; [|lia]. exists (1, 2, 3, 0)%Z. apply balanced_In. rewrite !pts_In. cbn. lia.
  - discriminate.
  - intros i. cbn. lra.
Qed.

Lemma oneGoodD : goodDR oneD.
Proof.
  apply goodDR_intro.
  - intros [|i] Hi; cbn in Hi; [|lia]. exists (3, 0, 1, 2)%Z. apply balanced_In. rewrite !pts_In. cbn. lia.
  - intros i. cbn. lra.
Qed.

Lemma oneIn : inNet oneNet oneR oneX.
Proof.
  constructor; try reflexivity; try (cbn; tauto); try (intros; reflexivity).
  - intros p d H. destruct p; inversion H; subst. cbn; tauto.
  - intros p d k H. destruct p; inversion H; subst. reflexivity.
  - intros p d H. destruct p; inversion H; subst. reflexivity.
Qed.

Lemma oneInD : inNetD oneNet oneD oneY.
Proof.
  constructor; try reflexivity; try (cbn; tauto); try (intros; reflexivity).
  - intros [|p]; cbn; tauto.
  - intros [|p] k; reflexivity.
  - intros [|p]; reflexivity.
Qed.

Lemma oneWfP : wfProd (fun c => In c [0; 1; 2]%nat) oneMid oneX.
Proof.
  constructor; try (cbn; tauto); try reflexivity.
  - intros p d H. destruct p; inversion H; subst. cbn; tauto.
  - intros p d k H. destruct p; inversion H; subst. reflexivity.
Qed.

(** ** Two axes, both grouped: A = (axis 0 in [1,3), axis 1 = 0), B = (1, 1),
    product (3, axis 1 in [0,2)). Moment ids 3 (A, axis 0) and 4 (product, axis 1). *)
Definition twoIv (c k : nat) : ival :=
  match c, k with
  | 0, 0 => Iv 1 3 | 0, 1 => Iv 0 1
  | 1, 0 => Iv 1 2 | 1, 1 => Iv 1 2
  | 2, 0 => Iv 3 4 | 2, 1 => Iv 0 2
  | _, _ => Iv 0 1
  end%nat.
Definition twoMid (c k : nat) : option nat :=
  match c, k with 0, 0 => Some 3 | 2, 1 => Some 4 | _, _ => None end%nat.
Definition twoVol (c : nat) : R := match c with 1%nat => 1 | _ => 2 end.
Definition twoNet : net := NT [0; 1; 2]%nat twoVol twoIv (fun _ _ => 1 / 4) twoMid.
Definition twoR : preact := PR 2 (twoIv 0) (twoIv 1) (twoIv 2)
  (fun _ => Iv 0 1) (fun _ => 1 / 4) (fun _ => 1 / 4) (fun _ => 1 / 4) (fun _ => 1 / 4) true false false.
Definition twoXof (C : cidx -> R) : prx := PX 2 0 1 (twoMid 0) (twoMid 1)
  (fun p => match p with O => Some 2%nat | _ => None end) (fun _ => twoMid 2)
  2 1 (fun _ => 2) 1 C.
Definition twoX : prx := twoXof (prodCoefs twoR).

Lemma twoWf : wfNet twoNet.
Proof.
  constructor.
  - cbn. repeat constructor; cbn; lia.
  - constructor.
    + intros c k c' k' d. cbn [nmid twoNet]. unfold twoMid.
      destruct c as [|[|[|c]]], k as [|[|k]], c' as [|[|[|c']]], k' as [|[|k']]; intros H H';
        try discriminate; try (split; reflexivity); congruence.
    + intros c k d. cbn [nmid twoNet]. unfold twoMid.
      destruct c as [|[|[|c]]], k as [|[|k]]; intros H; try discriminate; inversion H; subst; cbn; lia.
  - intros c. cbn [nvol twoNet]. unfold twoVol. destruct c as [|[|c]]; lra.
  - intros c k H. cbn [niv nmid twoNet] in *.
    destruct c as [|[|[|c]]], k as [|[|k]]; cbn in *; try discriminate; reflexivity.
Qed.

Lemma twoGood : goodPR twoR.
Proof.
  apply goodPR_intro.
  - reflexivity.
  - intros [|[|i]] Hi; cbn in Hi; [| |lia].
    + exists (2, 1, 3, 0)%Z. apply balanced_In. rewrite !pts_In. cbn. lia.
    + exists (0, 1, 1, 0)%Z. apply balanced_In. rewrite !pts_In. cbn. lia.
  - discriminate.
  - intros i. cbn. lra.
Qed.

Lemma twoIn : inNet twoNet twoR twoX.
Proof.
  constructor; try reflexivity; try (cbn; tauto); try (intros; reflexivity).
  - intros p d H. destruct p; inversion H; subst. cbn; tauto.
  - intros p d k H. destruct p; inversion H; subst. reflexivity.
  - intros p d H. destruct p; inversion H; subst. reflexivity.
Qed.

(** Only the first moment of A (id 3) and B (id 1) are nonzero. *)
Definition twoConc (i : nat) : R := match i with 1%nat => 1 | 3%nat => 1 | _ => 0 end.

Lemma twoFluxOf C s k : fluxSum (twoXof C) twoConc s k = C (Co 1 0 s k).
Proof.
  unfold fluxSum, xaxes, cR1, cR2, cmR1, cmR2. cbn [xna ra rb ma mb twoXof twoMid cval cf rate seq Rsum twoConc].
  ring.
Qed.
Lemma twoFlux s k : fluxSum twoX twoConc s k = prodCoefs twoR (Co 1 0 s k).
Proof. exact (twoFluxOf (prodCoefs twoR) s k). Qed.

Lemma two_spec_1000 : specCoef twoR 1 0 0 0 = 1 / 2.
Proof.
  unfold specCoef, axsum. cbn [axes na twoR seq Rprod slotd].
  rewrite !msum_balanced.
  replace (balanced (cl1 twoR 0) (cl2 twoR 0) (q1 twoR 0) (q2 twoR 0)) with [(2, 1, 3, 0)]%Z by reflexivity.
  replace (balanced (cl1 twoR 1) (cl2 twoR 1) (q1 twoR 1) (q2 twoR 1)) with [(0, 1, 1, 0)]%Z by reflexivity.
  cbn [Rsum]. unfold wt, slotw, wt, imean. cbn [Nat.eqb cl1 twoR twoIv ib ie]. zev. lra.
Qed.

Lemma two_stale : prodCoefs twoR (Co 1 0 2 2) = 0.
Proof. rewrite (coef_correct twoR twoGood) by (cbn; lia || auto). reflexivity. Qed.

Lemma two_spec_1022 : specCoef twoR 1 0 2 2 = 1.
Proof.
  unfold specCoef, axsum. cbn [axes na twoR seq Rprod slotd pdisp1].
  rewrite !msum_balanced.
  replace (balanced (cl1 twoR 0) (cl2 twoR 0) (q1 twoR 0) (q2 twoR 0)) with [(2, 1, 3, 0)]%Z by reflexivity.
  replace (balanced (cl1 twoR 1) (cl2 twoR 1) (q1 twoR 1) (q2 twoR 1)) with [(0, 1, 1, 0)]%Z by reflexivity.
  cbn [Rsum]. unfold wt, slotw, wt, imean. cbn [Nat.eqb cl1 q1 twoR twoIv ib ie]. zev. lra.
Qed.

Lemma two_not_conserved : content twoNet 1 (acc (prodFlux twoX twoConc)) = - (1 / 4).
Proof.
  rewrite (content_prodFlux twoNet twoR twoX twoConc twoWf twoIn) by (cbn; (lia || discriminate)).
  rewrite !twoFlux, two_stale, (coef_correct twoR twoGood 1 0 0 0) by (cbn; lia || auto).
  change (stale 1 0 0 0) with false. cbv iota. rewrite two_spec_1000.
  change (valid (ma twoX 1)) with false. change (valid (mb twoX 1)) with false.
  change (valid (pid twoX 0)) with true. change (valid (pid twoX 1)) with false.
  change (ind true) with 1. change (ind false) with 0.
  unfold imean. cbn [cl1 cl2 q1 q2 twoR twoIv ib ie]. zev. lra.
Qed.

(** ** A group that loses one atom and stays in the group:
    X_[3,7) -> X_1 + X_[3,7), the first product ungrouped. *)
Definition selfMid (c k : nat) : option nat := match c, k with 1, 0 => Some 2 | _, _ => None end%nat.
Definition selfIv (c k : nat) : ival := match c, k with 0, 0 => Iv 1 2 | 1, 0 => Iv 3 7 | _, _ => Iv 0 1 end%nat.
Definition selfD : dreact := DR 1 (selfIv 1) (fun _ => Iv 0 1) (selfIv 0) (selfIv 1)
  (fun _ => 5 / 4) (fun _ => 1) (fun _ => 5 / 4).
Definition selfYof (C : cidx -> R) : drx := DX 1 1 (selfMid 1) (fun p => match p with O => 0%nat | _ => 1%nat end)
  (fun p => match p with O => selfMid 0 | _ => selfMid 1 end) 4
  (fun p => match p with O => 1 | _ => 4 end) 1 C.
Definition selfY : drx := selfYof (dissCoefs selfD).
Lemma selfIds : wfIds (fun c => In c [0; 1]%nat) selfMid.
Proof.
  constructor.
  - intros c k c' k' d. unfold selfMid.
    destruct c as [|[|c]], k as [|k], c' as [|[|c']], k' as [|k']; intros H H';
      try discriminate; try (split; reflexivity); congruence.
  - intros c k d. unfold selfMid. destruct c as [|[|c]], k as [|k]; intros H; try discriminate;
      inversion H; subst; cbn; lia.
Qed.
Lemma selfWf : wfDiss (fun c => In c [0; 1]%nat) selfMid selfY.
Proof.
  constructor; try (cbn; tauto); try reflexivity.
  - intros [|p]; cbn; tauto.
  - intros [|p] k; reflexivity.
Qed.
Lemma selfGood : goodDR selfD.
Proof.
  apply goodDR_intro.
  - intros [|i] Hi; cbn in Hi; [|lia]. exists (4, 0, 1, 3)%Z. apply balanced_In. rewrite !pts_In. cbn. lia.
  - intros i. cbn. lra.
Qed.

Lemma self_full C : jacc (dissPartials (selfYof C)) 2 2
  = - (1 / 4) * C (Co 1 0 0 1)%nat + 1 / 4 * C (Co 1 0 2 1)%nat.
Proof.
  unfold dissPartials, dRow, jacc, yaxes.
  cbn [app flat_map seq yna rp mr dpid dmp vr dvp drate dcf selfYof selfMid guard Rsum oeqb Nat.eqb andb]. lra.
Qed.
Lemma self_reduced C : jacc (dissReduced (selfYof C)) 2 2 = - (1 / 4) * C (Co 1 0 0 1)%nat.
Proof.
  unfold dissReduced, jacc, yaxes.
  cbn [app flat_map seq yna rp mr dpid dmp vr dvp drate dcf selfYof selfMid guard when ideqb Rsum oeqb Nat.eqb andb]. lra.
Qed.
Lemma self_coef : dissCoefs selfD (Co 1 0 2 1) = 1.
Proof.
  rewrite (dcoef_correct selfD selfGood) by (cbn; lia).
  unfold dspecCoef, daxsum. cbn [daxes dna selfD seq Rprod dslotd dd2].
  rewrite !msum_balanced.
  replace (balanced (dcl selfD 0) (dcl2 selfD 0) (dp1 selfD 0) (dp2 selfD 0))
    with [(4, 0, 1, 3); (5, 0, 1, 4); (6, 0, 1, 5)]%Z by reflexivity.
  cbn [Rsum]. unfold dslotw, wt, imean. cbn [Nat.eqb dcl dp2 selfD selfIv ib ie]. zev. lra.
Qed.
Lemma self_missing : jacc (dissReduced selfY) 2 2 <> jacc (dissPartials selfY) 2 2.
Proof.
  unfold selfY. rewrite self_full, self_reduced, self_coef.
  generalize (dissCoefs selfD (Co 1 0 0 1)). intros z. lra.
Qed.

(** X_[3,6) -> X_[1,3) + X_3 with the first product grouped, the second and the
    parent (id 2) not: the code writes an entry that was never mapped. *)
Definition unmMid (c k : nat) : option nat := match c, k with 0, 0 => Some 3 | _, _ => None end%nat.
Definition unmY : drx := DX 1 2 (unmMid 2) (fun p => match p with O => 0%nat | _ => 1%nat end)
  (fun p => match p with O => unmMid 0 | _ => unmMid 1 end) 1
  (fun p => match p with O => 2 | _ => 1 end) 1 (fun _ => 1).
Lemma unmIds : wfIds (fun c => In c [0; 1; 2]%nat) unmMid.
Proof.
  constructor.
  - intros c k c' k' d. unfold unmMid.
    destruct c as [|c], k as [|k], c' as [|c'], k' as [|k']; intros H H';
      try discriminate; try (split; reflexivity); congruence.
  - intros c k d. unfold unmMid. destruct c as [|c], k as [|k]; intros H; try discriminate;
      inversion H; subst; cbn; lia.
Qed.
Lemma unmWf : wfDiss (fun c => In c [0; 1; 2]%nat) unmMid unmY.
Proof.
  constructor; try (cbn; tauto); try reflexivity.
  - intros [|p]; cbn; tauto.
  - intros [|p] k; reflexivity.
Qed.
Lemma unm_writes : In (None, None, 1) (dissReduced unmY).
Proof.
  unfold dissReduced, yaxes.
  cbn [app flat_map seq yna rp mr dpid dmp vr dvp drate dcf unmY unmMid guard when ideqb Nat.eqb].
  right. left. f_equal. lra.
Qed.

(** The one-axis reactions really transfer atoms. *)
Lemma one_flux C : acc (prodFlux (oneXof C) (fun i => if Nat.leb i 2 then 1 else 0)) 0
  = - C (Co 0 0 0 0)%nat.
Proof.
  unfold prodFlux, acc, fluxSum, xaxes, cmR1, cmR2, cR1, cR2.
  cbn [app flat_map seq xna ra rb ma mb pid mp va vb vp rate cf oneXof oneMid guard when valid
       Rsum oeqb Nat.eqb Nat.leb andb cval fst snd]. cbn [two seq flat_map gadd guard app Rsum Nat.eqb]. lra.
Qed.
Lemma one_coef : prodCoefs oneR (Co 0 0 0 0) = 2.
Proof.
  rewrite (coef_correct oneR oneGood) by (cbn; lia).
  change (stale 0 0 0 0) with false. unfold specCoef, axsum.
  cbn [axes na oneR seq Rprod slotd]. rewrite !msum_balanced.
  replace (balanced (cl1 oneR 0) (cl2 oneR 0) (q1 oneR 0) (q2 oneR 0))
    with [(1, 2, 3, 0); (1, 3, 4, 0)]%Z by reflexivity.
  cbn [Rsum]. unfold slotw, wt. cbn [Nat.eqb]. lra.
Qed.
Lemma one_flux_val : acc (prodFlux oneX (fun i => if Nat.leb i 2 then 1 else 0)) 0 = -2.
Proof. unfold oneX. rewrite one_flux, one_coef. reflexivity. Qed.
Lemma one_dflux C : acc (dissFlux (oneYof C) (fun i => if Nat.leb i 2 then 1 else 0)) 0
  = C (Co 0 0 0 0)%nat.
Proof.
  unfold dissFlux, acc, dfluxSum, yaxes, cR, cmR.
  cbn [app flat_map seq yna rp mr dpid dmp vr dvp drate dcf oneYof oneMid guard when valid
       Rsum oeqb Nat.eqb Nat.leb andb cval gadd fst snd]. lra.
Qed.
Lemma one_dcoef : dissCoefs oneD (Co 0 0 0 0) = 2.
Proof.
  rewrite (dcoef_correct oneD oneGoodD) by (cbn; lia).
  unfold dspecCoef, daxsum.
  cbn [daxes dna oneD seq Rprod dslotd]. rewrite !msum_balanced.
  replace (balanced (dcl oneD 0) (dcl2 oneD 0) (dp1 oneD 0) (dp2 oneD 0))
    with [(3, 0, 1, 2); (4, 0, 1, 3)]%Z by reflexivity.
  cbn [Rsum]. unfold dslotw, wt. cbn [Nat.eqb]. lra.
Qed.
Lemma one_dflux_val : acc (dissFlux oneY (fun i => if Nat.leb i 2 then 1 else 0)) 0 = 2.
Proof. unfold oneY. rewrite one_dflux, one_dcoef. reflexivity. Qed.
