(** Properties C05-C09 and C12: production, dissociation and re-solution. *)
From Verif Require Import ReactionExamples.
Open Scope R_scope.

(** * C05 *)
(** The coefficients: the intended sum over balanced microscopic reactions,
    except for the entries read before they are written, which are 0. *)
Theorem c05_coefficients : forall r, goodPR r -> forall a b s k,
  (a <= na r)%nat -> (b <= na r)%nat -> (k <= na r)%nat -> (s < 4)%nat ->
  (k = 0%nat -> s = 0%nat) -> ((2 <= s)%nat -> validProd r (s - 2) = true) ->
  prodCoefs r (Co a b s k) = if stale a b s k then 0 else specCoef r a b s k.
Proof. exact coef_correct. Qed.
Print Assumptions c05_coefficients.

Example c05_coefficients_example : goodPR oneR /\ prodCoefs oneR (Co 0 0 0 0) = 2.
Proof. split; [exact oneGood|exact one_coef]. Qed.

(** Not every coefficient is the intended sum. *)
Theorem c05_coefficients_refuted : exists r a b s k, goodPR r /\
  (a <= na r /\ b <= na r /\ k <= na r /\ s < 4 /\ 0 < k)%nat /\ validProd r (s - 2) = true /\
  prodCoefs r (Co a b s k) <> specCoef r a b s k.
Proof.
  exists twoR, 1%nat, 0%nat, 2%nat, 2%nat. split; [exact twoGood|]. split; [cbn; lia|]. split; [reflexivity|].
  rewrite two_stale, two_spec_1022. lra.
Qed.
Print Assumptions c05_coefficients_refuted.

(** The zeroth moment changes at the sum over all balanced microscopic
    reactions of rate * (reconstructed concentrations). *)
Theorem c05_flux_is_microscopic : forall r x conc, goodPR r -> xna x = na r -> cf x = prodCoefs r ->
  fluxSum x conc 0 0 = rate x * Rsum (microR r) (fun t => conc1 r x conc t * conc2 r x conc t).
Proof.
  intros r x conc G Hna Hcf.
  assert (H : slotd r 0 0 * fluxSum x conc 0 0 =
     rate x * Rsum (microR r) (fun t => conc1 r x conc t * conc2 r x conc t * dev r 0 0 t)).
  { apply flux_micro; auto; try lia. intros a b _ _. unfold stale.
    intros H. exfalso. destruct a as [|a], b as [|b]; cbn in H; try discriminate.
    rewrite Bool.andb_false_r in H. discriminate. }
  unfold slotd in H. rewrite Rmult_1_l in H. rewrite H. f_equal. apply Rsum_ext. intros t _. unfold dev. ring.
Qed.
Print Assumptions c05_flux_is_microscopic.

(** The microscopic reactions: one balanced quadruple of sizes per species axis. *)
Theorem c05_microscopic_reactions : forall r t, In t (microR r) <->
  length t = na r /\ forall i, (i < na r)%nat ->
    (ib (cl1 r i) <= qa (at_axis t i) < ie (cl1 r i) /\
     ib (cl2 r i) <= qb (at_axis t i) < ie (cl2 r i) /\
     ib (q1 r i) <= qc (at_axis t i) < ie (q1 r i) /\
     ib (q2 r i) <= qd (at_axis t i) < ie (q2 r i) /\
     qa (at_axis t i) + qb (at_axis t i) = qc (at_axis t i) + qd (at_axis t i))%Z.
Proof.
  intros r t. unfold microR. rewrite comps_In. split; intros [Hl H]; (split; [exact Hl|]); intros i Hi;
  specialize (H i Hi); destruct (at_axis t i) as [[[u v] w] z]; rewrite balanced_In, !pts_In in *; exact H.
Qed.
Print Assumptions c05_microscopic_reactions.

(** First moments, when no coefficient read too early takes part. *)
Theorem c05_first_moment_flux_is_microscopic_partial : forall r x conc, goodPR r -> xna x = na r -> cf x = prodCoefs r ->
  forall s k, (k < na r)%nat -> (s < 4)%nat -> ((2 <= s)%nat -> validProd r (s - 2) = true) ->
  earlier_flat x conc k ->
  slotd r s (S k) * fluxSum x conc s (S k) =
  rate x * Rsum (microR r) (fun t => conc1 r x conc t * conc2 r x conc t
    * (IZR (amount s (at_axis t k)) - imean (srange r s k))).
Proof.
  intros r x conc G Hna Hcf s k Hk Hs Hv E.
  apply (flux_micro r x conc G Hna Hcf s (S k)); auto; try lia. apply fresh_flat; auto.
Qed.
Print Assumptions c05_first_moment_flux_is_microscopic_partial.

(** Atoms of each species are conserved when the earlier axes carry no first
    moment; in particular on the first axis. Missing: several grouped axes. *)
Theorem c05_conserved_partial : forall N r x conc, wfNet N -> goodPR r -> inNet N r x -> compactProducts x ->
  forall k, (k < na r)%nat -> earlier_flat x conc k ->
  content N k (acc (prodFlux x conc)) = 0.
Proof. exact prod_conserved. Qed.
Print Assumptions c05_conserved_partial.

Theorem c05_conserved_first_axis : forall N r x conc, wfNet N -> goodPR r -> inNet N r x -> compactProducts x ->
  (0 < na r)%nat -> content N 0 (acc (prodFlux x conc)) = 0.
Proof. intros. eapply prod_conserved; eauto. intros i Hi. lia. Qed.
Print Assumptions c05_conserved_first_axis.

(** Ungrouped networks: every species. *)
Theorem c05_conserved_ungrouped : forall N r x conc, wfNet N -> goodPR r -> inNet N r x -> compactProducts x ->
  (forall c k, nmid N c k = None) ->
  forall k, (k < na r)%nat -> content N k (acc (prodFlux x conc)) = 0.
Proof.
  intros N r x conc WN G I CP U k Hk. eapply prod_conserved; eauto. intros i _.
  rewrite (i_ma _ _ _ I), (i_mb _ _ _ I), !U. split; reflexivity.
Qed.
Print Assumptions c05_conserved_ungrouped.

Example c05_conserved_example :
  let conc := fun i => if Nat.leb i 2 then 1 else 0 in
  content oneNet 0 (acc (prodFlux oneX conc)) = 0 /\ acc (prodFlux oneX conc) 0 = -2.
Proof.
  split; [|exact one_flux_val].
  apply (c05_conserved_first_axis _ oneR); [exact oneWf|exact oneGood|exact oneIn|discriminate|cbn; lia].
Qed.

Theorem c05_conserved_refuted : exists N r x conc k, wfNet N /\ goodPR r /\ inNet N r x /\ compactProducts x /\
  (k < na r)%nat /\ content N k (acc (prodFlux x conc)) <> 0.
Proof.
  exists twoNet, twoR, twoX, twoConc, 1%nat.
  split; [exact twoWf|]. split; [exact twoGood|]. split; [exact twoIn|]. split; [discriminate|].
  split; [cbn; lia|]. rewrite two_not_conserved. lra.
Qed.
Print Assumptions c05_conserved_refuted.

(** * C06 *)
Theorem c06_jacobian : forall x conc row col, compactProducts x ->
  is_partial (fun c => acc (prodFlux x c) row) conc col (jacc (prodPartials x conc) row col).
Proof. exact prod_jacobian. Qed.
Print Assumptions c06_jacobian.

(** [is_partial] is the usual partial derivative. *)
Example c06_partial_meaning : forall f conc j d, is_partial f conc j d <->
  derivable_pt_lim (fun t => f (fun i => if (i =? j)%nat then t else conc i)) (conc j) d.
Proof. intros. reflexivity. Qed.

Example c06_example : compactProducts oneX /\
  is_partial (fun c => acc (prodFlux oneX c) 4) (fun _ => 1) 3 (jacc (prodPartials oneX (fun _ => 1)) 4 3).
Proof. split; [discriminate|]. apply c06_jacobian. discriminate. Qed.

(** * C07 *)
Theorem c07_coefficients : forall r, goodDR r -> forall a s k,
  (a <= dna r)%nat -> (k <= dna r)%nat -> (s < 3)%nat -> (k = 0%nat -> s = 0%nat) ->
  dissCoefs r (Co a 0 s k) = dspecCoef r a s k.
Proof. exact dcoef_correct. Qed.
Print Assumptions c07_coefficients.

Theorem c07_flux_is_microscopic : forall r y conc, goodDR r -> yna y = dna r -> dcf y = dissCoefs r ->
  forall s k, (k <= dna r)%nat -> (s < 3)%nat -> (k = 0%nat -> s = 0%nat) ->
  dslotd r s k * dfluxSum y conc s k = drate y * Rsum (dmicro r) (fun t => concP r y conc t * ddev r s k t).
Proof. exact dflux_micro. Qed.
Print Assumptions c07_flux_is_microscopic.

Theorem c07_conserved : forall N r y conc, wfNet N -> goodDR r -> inNetD N r y ->
  forall k, (k < dna r)%nat -> content N k (acc (dissFlux y conc)) = 0.
Proof. exact diss_conserved. Qed.
Print Assumptions c07_conserved.

Theorem c07_jacobian : forall y conc row col,
  is_partial (fun c => acc (dissFlux y c) row) conc col (jacc (dissPartials y) row col).
Proof. exact diss_jacobian. Qed.
Print Assumptions c07_jacobian.

Example c07_example :
  let conc := fun i => if Nat.leb i 2 then 1 else 0 in
  content oneNet 0 (acc (dissFlux oneY conc)) = 0 /\ acc (dissFlux oneY conc) 0 = 2.
Proof.
  split; [|exact one_dflux_val].
  apply (c07_conserved _ oneD); [exact oneWf|exact oneGoodD|exact oneInD|cbn; lia].
Qed.

(** * C08 *)
Theorem c08_production : forall isCl mid x conc row col, wfIds isCl mid -> wfProd isCl mid x ->
  jacc (prodReduced x conc) row col = if (row =? col)%nat then jacc (prodPartials x conc) row col else 0.
Proof. exact prod_reduced. Qed.
Print Assumptions c08_production.

Example c08_production_example : wfIds (fun c => In c [0; 1; 2]%nat) oneMid
  /\ wfProd (fun c => In c [0; 1; 2]%nat) oneMid oneX.
Proof. split; [exact oneIds|exact oneWfP]. Qed.

(** Missing: products grouped on different axes. *)
Theorem c08_dissociation_partial : forall isCl mid y row col, wfIds isCl mid -> wfDiss isCl mid y ->
  sameGrouping y ->
  jacc (dissReduced y) row col = if (row =? col)%nat then jacc (dissPartials y) row col else 0.
Proof. exact diss_reduced. Qed.
Print Assumptions c08_dissociation_partial.

Theorem c08_dissociation_refuted : exists isCl mid r y row, wfIds isCl mid /\ wfDiss isCl mid y /\
  goodDR r /\ dcf y = dissCoefs r /\
  jacc (dissReduced y) row row <> jacc (dissPartials y) row row.
Proof.
  exists (fun c => In c [0; 1]%nat), selfMid, selfD, selfY, 2%nat.
  split; [exact selfIds|]. split; [exact selfWf|]. split; [exact selfGood|]. split; [reflexivity|exact self_missing].
Qed.
Print Assumptions c08_dissociation_refuted.

(** * C09: re-solution *)
Theorem c09_conserved : forall N r y conc, wfNet N -> goodDR r -> inNetD N r y ->
  forall k, (k < dna r)%nat -> content N k (acc (resoFlux y conc)) = 0.
Proof. exact diss_conserved. Qed.
Print Assumptions c09_conserved.

Theorem c09_jacobian : forall y conc row col,
  is_partial (fun c => acc (resoFlux y c) row) conc col (jacc (resoPartials y) row col).
Proof. exact diss_jacobian. Qed.
Print Assumptions c09_jacobian.

Theorem c09_contained : forall y o o' v, In (o, o', v) (resoPartials y) ->
  In (o, o') (resoConn y) /\ o <> None /\ o' <> None.
Proof. exact diss_contained. Qed.
Print Assumptions c09_contained.

Theorem c09_reduced_refuted : exists isCl mid r y row, wfIds isCl mid /\ wfDiss isCl mid y /\
  goodDR r /\ dcf y = resoCoefs r /\
  jacc (resoReduced y) row row <> jacc (resoPartials y) row row.
Proof. exact c08_dissociation_refuted. Qed.
Print Assumptions c09_reduced_refuted.

Example c09_example :
  let conc := fun i => if Nat.leb i 2 then 1 else 0 in
  content oneNet 0 (acc (resoFlux oneY conc)) = 0 /\ acc (resoFlux oneY conc) 0 = 2.
Proof. exact c07_example. Qed.

(** * C12 *)
Theorem c12_production : forall x conc o o' v, In (o, o', v) (prodPartials x conc) ->
  In (o, o') (prodConn x) /\ o <> None /\ o' <> None.
Proof. exact prod_contained. Qed.
Print Assumptions c12_production.

Theorem c12_production_reduced : forall x conc o o' v, In (o, o', v) (prodReduced x conc) ->
  In (o, o') (prodConnRed x) /\ o <> None /\ o' <> None.
Proof. exact prod_reduced_contained. Qed.
Print Assumptions c12_production_reduced.

Theorem c12_dissociation : forall y o o' v, In (o, o', v) (dissPartials y) ->
  In (o, o') (dissConn y) /\ o <> None /\ o' <> None.
Proof. exact diss_contained. Qed.
Print Assumptions c12_dissociation.

Theorem c12_dissociation_reduced_partial : forall y o o' v, sameGrouping y -> In (o, o', v) (dissReduced y) ->
  In (o, o') (dissConnRed y) /\ o <> None /\ o' <> None.
Proof. exact diss_reduced_contained. Qed.
Print Assumptions c12_dissociation_reduced_partial.

(** A write through an entry which mapJacobianEntries never mapped. *)
Theorem c12_dissociation_reduced_refuted : exists isCl mid y v, wfIds isCl mid /\ wfDiss isCl mid y /\
  In (None, None, v) (dissReduced y).
Proof. eexists _, _, unmY, 1. split; [exact unmIds|]. split; [exact unmWf|exact unm_writes]. Qed.
Print Assumptions c12_dissociation_reduced_refuted.

Example c12_example : In (Some 4%nat, Some 3%nat) (prodConn oneX) /\ In (Some 3%nat, Some 4%nat) (dissConn oneY).
Proof. split; cbn; tauto. Qed.
