(** C58: the clusters of a network are those within the limits asked for. *)
From Coq Require Import Reals List ZArith Lia Bool.
From Verif Require Import GenModel EnergyModel Properties_Energy SelectModel.
Import ListNotations.
Open Scope Z_scope.

(** Decide the comparisons of integers in the goal. *)
Ltac decide_all := repeat (cbn [andb orb negb]; match goal with
  | |- context [?a <? ?b] => first [rewrite (proj2 (Z.ltb_lt a b)) by lia | rewrite (proj2 (Z.ltb_ge a b)) by lia | destruct (Z.ltb_spec a b)]
  | |- context [?a <=? ?b] => first [rewrite (proj2 (Z.leb_le a b)) by lia | rewrite (proj2 (Z.leb_gt a b)) by lia | destruct (Z.leb_spec a b)]
  | |- context [?a =? ?b] => first [rewrite (proj2 (Z.eqb_eq a b)) by lia | rewrite (proj2 (Z.eqb_neq a b)) by lia | destruct (Z.eqb_spec a b)]
  end); cbn [andb orb negb].
(** *** PSI *)
Section PSI.
Variables maxHe maxD maxT maxV maxPureV maxI : Z.
Variable ratio : R.
Variable B : Z -> Z.
(** The PSI clusters asked for: pure ones up to the limit of their species; with vacancies, up to [B v] helium atoms,
    two thirds of that number of deuterium and of tritium, and in all at most six hydrogen atoms per vacancy without
    helium, at most two thirds of the helium (rounded) with helium. Nothing else goes with interstitials, and nothing
    goes without vacancies. *)
Inductive admissible : comp -> Prop :=
| adI i : 0 < i <= maxI -> admissible (Comp 0 0 0 0 i)
| adHe he : 0 < he <= maxHe -> admissible (Comp he 0 0 0 0)
| adD d : 0 < d <= maxD -> admissible (Comp 0 d 0 0 0)
| adT t : 0 < t <= maxT -> admissible (Comp 0 0 t 0 0)
| adV v : 0 < v <= maxPureV -> admissible (Comp 0 0 0 v 0)
| adMixed he d t v : 0 < v <= maxV -> v <= maxPureV -> 0 <= he <= B v -> 0 <= d -> 3 * d <= 2 * B v -> 0 <= t -> 3 * t <= 2 * B v ->
    0 < he + d + t -> 0 < maxHe \/ 0 < maxD \/ 0 < maxT ->
    (he = 0 -> d + t <= 6 * v) -> (0 < he -> 6 * (d + t) <= 4 * he + 3) -> admissible (Comp he d t v 0).
Definition nonneg c := 0 <= aHe c /\ 0 <= aD c /\ 0 <= aT c /\ 0 <= aV c /\ 0 <= aI c.
Hypothesis limits : 0 <= maxHe /\ 0 <= maxD /\ 0 <= maxT /\ 0 <= maxV /\ 0 <= maxPureV /\ 0 <= maxI.
Hypothesis small : 6 * maxV + 87 < 4294967296.
Hypothesis bound : forall v, 0 <= v <= maxV -> getMaxHePerV v ratio = Some (B v).
Lemma B_mono v v' : 0 <= v <= v' -> v' <= maxV -> B v <= B v'.
Proof using bound limits small. intros A C. apply (c39_monotone v v' ratio); try lia; apply bound; lia. Qed.
Lemma axes_iff c : nonneg c -> selectAxes maxHe maxD maxT maxV maxPureV maxI (single c) = true <->
  admissible (Comp 0 0 0 0 (aI c)) /\ aHe c = 0 /\ aD c = 0 /\ aT c = 0 /\ aV c = 0 \/
  aI c = 0 /\ aV c = 0 /\ (0 < aHe c <= maxHe /\ aD c = 0 /\ aT c = 0 \/ aHe c = 0 /\ 0 < aD c <= maxD /\ aT c = 0 \/ aHe c = 0 /\ aD c = 0 /\ 0 < aT c <= maxT) \/
  aI c = 0 /\ 0 < aV c <= maxPureV /\ (aHe c = 0 /\ aD c = 0 /\ aT c = 0 \/ aV c <= maxV /\ (0 < maxHe \/ 0 < maxD \/ 0 < maxT)).
Proof using limits.
  destruct c as [he d t v i]. unfold nonneg, selectAxes, single, ends, any, one, onI, onV. cbn [aHe aD aT aV aI lo hi].
  intros H. assert (E : admissible (Comp 0 0 0 0 i) <-> 0 < i <= maxI). { split; [|constructor; auto]. intros A. inversion A; subst; lia. } rewrite E.
  assert (Hz : forall x, 0 <= x -> x = 0 \/ 0 < x) by (intros; lia).
  destruct (Hz he ltac:(lia)) as [->|H1]; destruct (Hz d ltac:(lia)) as [->|H2]; destruct (Hz t ltac:(lia)) as [->|H3]; destruct (Hz v ltac:(lia)) as [->|H4];
  destruct (Hz i ltac:(lia)) as [->|H5]; decide_all; (split; [intros X; try discriminate X; lia|intros X; try reflexivity; exfalso; lia]).
Qed.
Lemma u32_id x : 0 <= x < 4294967296 -> u32 x = x.
Proof. intros. unfold u32. apply Z.mod_small. auto. Qed.
(** Machine sizes: sums of two amounts fit 32 bits. *)
Definition fits c := aD c + aT c < 4294967296.
Theorem c58_psi c : nonneg c -> fits c ->
  (select maxHe maxD maxT maxV maxPureV maxI ratio (single c) = Some true <-> admissible c).
Proof using limits small bound.
  intros Hn Hf. unfold select. destruct (selectAxes maxHe maxD maxT maxV maxPureV maxI (single c)) eqn:E.
  - apply (axes_iff c Hn) in E. destruct c as [he d t v i]. unfold nonneg, fits in *. cbn [aHe aD aT aV aI] in *.
    destruct E as [(A & -> & -> & -> & ->)|[(-> & -> & A)|(-> & Hv & A)]].
    + cbn. split; auto.
    + cbn. split; [intros _|auto]. destruct A as [(? & -> & ->)|[(-> & ? & ->)|(-> & -> & ?)]]; constructor; lia.
    + unfold selectEdge, single. cbn [aHe aD aT aV aI lo hi]. rewrite (proj2 (Z.ltb_lt 1 (v + 1))) by lia.
      rewrite (bound maxV), (bound (Z.min (v + 1 - 1) maxV)) by lia. replace (v + 1 - 1) with v by lia. replace (he + 1 - 1) with he by lia.
      rewrite (u32_id (d + t)), (u32_id (6 * _)) by lia. unfold onV. cbn [aHe aD aT aV aI]. rewrite !andb_true_r.
      assert (B0 : 0 <= B 0). { pose proof (bound 0 ltac:(lia)) as X. assert (Y : getMaxHePerV 0 ratio = Some 0) by reflexivity. rewrite Y in X. injection X as <-. lia. }
      assert (B1 : 0 <= B (Z.min v maxV)). { pose proof (B_mono 0 (Z.min v maxV) ltac:(lia) ltac:(lia)). lia. }
      split.
      * intros X. apply some_inj in X. revert X. destruct A as [(-> & -> & ->)|(Hm & A)]; [intros _; constructor; lia|]. rewrite (Z.min_l v maxV) in * by lia.
        destruct (Z.eq_dec (he + d + t) 0) as [Z0|N0].
        { assert (he = 0) by lia. assert (d = 0) by lia. assert (t = 0) by lia. subst. intros _. constructor. lia. }
        intros X. apply adMixed; try lia; try (revert X; decide_all; intros X; try discriminate X; lia).
      * intros X. f_equal. inversion X; subst; try lia.
        -- decide_all; try reflexivity; lia.
        -- pose proof (B_mono v maxV ltac:(lia) ltac:(lia)) as M. rewrite (Z.min_l v maxV) in * by lia. assert (Z.min he (B maxV) = he) as -> by lia.
           decide_all; try reflexivity; lia.
  - split; [discriminate|]. intros A. exfalso. rewrite <- not_true_iff_false in E. apply E. apply (axes_iff c Hn).
    inversion A; subst; cbn [aHe aD aT aV aI]; try (left; repeat split; constructor; lia); right; try (left; lia); right; lia.
Qed.
(** A composition of a region. *)
Definition inside c r := aHe (lo r) <= aHe c < aHe (hi r) /\ aD (lo r) <= aD c < aD (hi r) /\ aT (lo r) <= aT c < aT (hi r) /\
  aV (lo r) <= aV c < aV (hi r) /\ aI (lo r) <= aI c < aI (hi r).
(** No composition asked for is lost in a group: a region with one, and which is not longer than one along the vacancy
    and helium axes where it starts at zero, is a cluster. *)
Lemma no_loss r c : nonneg (lo r) -> inside c r -> aD c + aT c < 4294967296 ->
  (aV (lo r) = 0 -> aV (hi r) = 1) -> (aHe (lo r) = 0 -> aHe (hi r) = 1) ->
  admissible c -> select maxHe maxD maxT maxV maxPureV maxI ratio r = Some true.
Proof using limits small bound.
  destruct r as [[he0 d0 t0 v0 i0] [he1 d1 t1 v1 i1]]. destruct c as [he d t v i]. unfold nonneg, inside. cbn [aHe aD aT aV aI lo hi]. intros Hn Hi Hf HV HHe Ha.
  unfold select.
  assert (S : selectAxes maxHe maxD maxT maxV maxPureV maxI (Region (Comp he0 d0 t0 v0 i0) (Comp he1 d1 t1 v1 i1)) = true).
  { unfold selectAxes, ends, any, one, onI, onV. cbn [aHe aD aT aV aI lo hi].
    inversion Ha; subst; clear Ha.
    - assert (he0 = 0) by lia. assert (d0 = 0) by lia. assert (t0 = 0) by lia. assert (v0 = 0) by lia. assert (v1 = 1) by lia. assert (he1 = 1) by lia. subst. decide_all; try reflexivity; lia.
    - assert (i0 = 0) by lia. assert (d0 = 0) by lia. assert (t0 = 0) by lia. assert (v0 = 0) by lia. assert (v1 = 1) by lia. subst. decide_all; try reflexivity; lia.
    - assert (he0 = 0) by lia. assert (i0 = 0) by lia. assert (t0 = 0) by lia. assert (v0 = 0) by lia. assert (v1 = 1) by lia. assert (he1 = 1) by lia. subst. decide_all; try reflexivity; lia.
    - assert (he0 = 0) by lia. assert (i0 = 0) by lia. assert (d0 = 0) by lia. assert (v0 = 0) by lia. assert (v1 = 1) by lia. assert (he1 = 1) by lia. subst. decide_all; try reflexivity; lia.
    - assert (he0 = 0) by lia. assert (i0 = 0) by lia. assert (d0 = 0) by lia. assert (t0 = 0) by lia. assert (he1 = 1) by lia. subst. decide_all; try reflexivity; lia.
    - assert (i0 = 0) by lia. assert (0 < v0) by lia. subst. rewrite !andb_true_iff, !orb_true_iff, !negb_true_iff.
      repeat split; decide_all; try reflexivity; try lia; auto; decide_all; auto; lia. }
  rewrite S. unfold selectEdge. cbn [aHe aD aT aV aI lo hi]. destruct (Z.ltb_spec 1 v1); [|reflexivity].
  rewrite (bound maxV), (bound (Z.min (v1 - 1) maxV)) by lia. rewrite (u32_id (d0 + t0)), (u32_id (6 * _)) by lia. unfold onV. cbn [aHe aD aT aV aI].
  assert (B0 : 0 <= B 0). { pose proof (bound 0 ltac:(lia)) as X. assert (Y : getMaxHePerV 0 ratio = Some 0) by reflexivity. rewrite Y in X. injection X as <-. lia. }
  assert (B1 : 0 <= B (Z.min (v1 - 1) maxV)). { pose proof (B_mono 0 (Z.min (v1 - 1) maxV) ltac:(lia) ltac:(lia)). lia. }
  f_equal. inversion Ha; subst; try lia.
  - assert (he0 = 0) by lia. assert (d0 = 0) by lia. assert (t0 = 0) by lia. subst. decide_all; try reflexivity; lia.
  - pose proof (B_mono v (Z.min (v1 - 1) maxV) ltac:(lia) ltac:(lia)) as M. pose proof (B_mono v maxV ltac:(lia) ltac:(lia)) as M'.
    decide_all; try reflexivity; lia.
Qed.
Variables groupingMin widthA widthB : Z.
Variables hasD hasT : bool.
Lemma keep (p : flags -> bool) b g f : (forall f, p (g f) = p f) -> p (onlyIf b g f) = p f.
Proof using. intros H. destruct b; cbn; auto. Qed.
Lemma raise (p : flags -> bool) b g f : (forall f, p (g f) = true) -> p f = true -> p (onlyIf b g f) = true.
Proof using. intros H. destruct b; cbn; auto. Qed.
Ltac peel := repeat match goal with
  | |- ?p (onlyIf true ?g ?f) = true => reflexivity
  | |- ?p (onlyIf false ?g ?f) = true => change (p f = true)
  | |- ?p (onlyIf ?b ?g ?f) = true => first [rewrite (keep p b g f) by (intros [? ? ? ? ?]; destruct hasT, hasD; reflexivity) | apply (raise p b g f); [intros [? ? ? ? ?]; destruct hasT, hasD; reflexivity|]]
  end; try reflexivity.
(** The refinement flags the axes along which a region starts at zero. *)
Theorem c58_psi_zero_axes r f : refine maxHe maxD maxT maxV maxPureV maxI groupingMin widthA widthB hasD hasT ratio r = Some f ->
  (aHe (lo r) = 0 -> fHe f = true) /\ (aV (lo r) = 0 -> fV f = true) /\ (aI (lo r) = 0 -> fI f = true) /\
  (aD (lo r) = 0 -> fD f = true) /\ (aT (lo r) = 0 -> fT f = true).
Proof using.
  unfold refine. destruct (refineI maxI groupingMin widthB r) as [g|] eqn:EI.
  { intros X. apply some_inj in X. subst g. unfold refineI in EI. destruct (Z.ltb_spec 0 (aI (lo r))); [|discriminate].
    repeat match type of EI with (if ?b then _ else _) = _ => destruct b end; try discriminate; apply some_inj in EI; subst; cbn; repeat split; lia || auto. }
  destruct (refineV maxHe maxD maxT maxV maxPureV groupingMin widthB r) as [g|] eqn:EV.
  { intros X. apply some_inj in X. subst g. unfold refineV in EV. destruct (Z.ltb_spec 0 (aV (lo r))); cbn [andb] in EV; [|discriminate].
    repeat match type of EV with (if ?b then _ else _) = _ => destruct b end; try discriminate; apply some_inj in EV; subst; cbn; repeat split; lia || auto. }
  assert (Hs : forall b g x, fHe x = true \/ b = true /\ fHe (g x) = true -> fHe x = true -> True) by auto. clear Hs.
  destruct (refineSmall _ _ _ _ _ _ _); [intros X; apply some_inj in X; subst; cbn; auto|].
  assert (HR : forall g, g = refineRest maxV maxPureV widthA widthB hasD hasT r -> (aHe (lo r) = 0 -> fHe g = true) /\ (aV (lo r) = 0 -> fV g = true) /\ (aI (lo r) = 0 -> fI g = true) /\
    (aD (lo r) = 0 -> fD g = true) /\ (aT (lo r) = 0 -> fT g = true)).
  { intros g ->. unfold refineRest. cbv zeta. unfold isZero.
    repeat split; intros Z0; rewrite ?Z0; cbn [Z.eqb]; rewrite ?andb_true_r; try solve [peel].
    - destruct hasD; cbn [andb]; peel.
    - destruct hasT; cbn [andb]; peel. }
  destruct (_ && _) eqn:EE; [|intros X; apply some_inj in X; subst; apply HR; reflexivity].
  destruct (getMaxHePerV _ _) as [bHi|]; [|discriminate]. destruct (getMaxHePerV _ _) as [bLo|]; [|discriminate].
  match goal with |- (if ?b then _ else _) = _ -> _ => destruct b end; [|intros X; apply some_inj in X; subst; apply HR; reflexivity].
  intros X; apply some_inj in X; subst. unfold refineEdge. cbv zeta. unfold isZero.
  repeat split; intros Z0; rewrite ?Z0; cbn [Z.eqb]; rewrite ?andb_true_r; try solve [peel].
  - destruct hasD; cbn [andb]; peel.
  - destruct hasT; cbn [andb]; peel.
Qed.
(** A region which is not cut further. *)
Definition finished r : Prop := exists f, refine maxHe maxD maxT maxV maxPureV maxI groupingMin widthA widthB hasD hasT ratio r = Some f /\
  (fHe f = true -> aHe (hi r) = aHe (lo r) + 1) /\ (fD f = true -> aD (hi r) = aD (lo r) + 1) /\ (fT f = true -> aT (hi r) = aT (lo r) + 1) /\
  (fV f = true -> aV (hi r) = aV (lo r) + 1) /\ (fI f = true -> aI (hi r) = aI (lo r) + 1).
Theorem c58_psi_no_loss r c : nonneg (lo r) -> finished r -> inside c r -> aD c + aT c < 4294967296 -> admissible c ->
  select maxHe maxD maxT maxV maxPureV maxI ratio r = Some true.
Proof using limits small bound.
  intros Hn (f & Hf & F1 & _ & _ & F4 & _) Hi Hd Ha. destruct (c58_psi_zero_axes _ _ Hf) as (Z1 & Z2 & _).
  apply (no_loss r c); auto; intros E; [rewrite (F4 (Z2 E))|rewrite (F1 (Z1 E))]; lia.
Qed.
(** No group along helium reaches beyond the edge. *)
Theorem c58_psi_groups r f c : nonneg (lo r) -> 0 < groupingMin -> aV (hi r) - 1 <= maxV ->
  refine maxHe maxD maxT maxV maxPureV maxI groupingMin widthA widthB hasD hasT ratio r = Some f -> fHe f = false ->
  select maxHe maxD maxT maxV maxPureV maxI ratio r = Some true -> inside c r -> aHe c < B (aV c).
Proof using limits small bound.
  intros Hn Hg Hv Hf Hh Hs Hi. revert Hf. unfold refine. destruct (refineI maxI groupingMin widthB r) as [g|] eqn:EI.
  { intros X. apply some_inj in X. subst g. unfold refineI in EI. 
    repeat match type of EI with (if ?b then _ else _) = _ => destruct b end; try discriminate; apply some_inj in EI; subst; cbn in Hh; discriminate. }
  destruct (refineV maxHe maxD maxT maxV maxPureV groupingMin widthB r) as [g|] eqn:EV.
  { intros X. apply some_inj in X. subst g. unfold refineV in EV.
    repeat match type of EV with (if ?b then _ else _) = _ => destruct b end; try discriminate; apply some_inj in EV; subst; cbn in Hh; discriminate. }
  destruct (refineSmall _ _ _ _ _ _ _) eqn:ES; [intros X; apply some_inj in X; subst; discriminate|].
  assert (HV : groupingMin <= aV (lo r)). { unfold refineSmall in ES. rewrite !orb_false_iff in ES. destruct ES as (((((_ & X) & _) & _) & _) & _). apply Z.ltb_ge in X. lia. }
  unfold inside in Hi. rewrite (proj2 (Z.ltb_lt 1 (aV (hi r)))), (proj2 (Z.leb_le (aV (lo r)) maxV)) by lia. cbn [andb].
  rewrite !u32_id by lia. rewrite !bound by lia.
  assert (HE : aHe (lo r) <= B (aV (hi r) - 1)).
  { unfold select in Hs. destruct (selectAxes _ _ _ _ _ _ _); [|discriminate]. unfold selectEdge in Hs. rewrite (proj2 (Z.ltb_lt 1 (aV (hi r)))) in Hs by lia.
    rewrite Z.min_l in Hs by lia. rewrite !bound in Hs by lia. apply some_inj in Hs. rewrite !andb_true_iff, !negb_true_iff in Hs. destruct Hs as ((((_ & X) & _) & _) & _). apply Z.ltb_ge in X. lia. }
  rewrite (proj2 (Z.leb_le _ _) HE). cbn [andb]. destruct (Z.leb_spec (B (aV (lo r) - 1)) (aHe (hi r) - 1)) as [C|C].
  - intros X. apply some_inj in X. subst. exfalso. revert Hh. unfold refineEdge, onlyIf. cbv zeta.
    repeat match goal with |- context [if ?b then _ else _] => destruct b end; cbn; discriminate.
  - intros _. pose proof (B_mono (aV (lo r) - 1) (aV c) ltac:(lia) ltac:(lia)). lia.
Qed.
End PSI.
(** A network with up to 8 helium atoms, one deuterium, one tritium, 7 vacancies: bubbles up to 35 helium atoms; a group
    of 4 to 7 helium atoms with 4 or 5 vacancies. *)
Definition edge7 (v : Z) : Z := nth (Z.to_nat v) [0; 9; 14; 18; 20; 27; 30; 35] 0.
Example c58_psi_ok : (forall v, 0 <= v <= 7 -> getMaxHePerV v 4.0 = Some (edge7 v)) /\
  admissible 8 1 1 7 7 6 edge7 (Comp 20 5 4 5 0) /\ ~ admissible 8 1 1 7 7 6 edge7 (Comp 28 0 0 5 0) /\
  let r := Region (Comp 4 0 0 4 0) (Comp 8 1 1 6 1) in
  finished 8 1 1 7 7 6 4.0 3 4 2 true true r /\ inside (Comp 6 0 0 5 0) r /\ admissible 8 1 1 7 7 6 edge7 (Comp 6 0 0 5 0) /\
  (exists f, refine 8 1 1 7 7 6 3 4 2 true true 4.0 r = Some f /\ fHe f = false) /\ select 8 1 1 7 7 6 4.0 r = Some true.
Proof.
  split.
  { intros v Hv. assert (T : forall n, (n < 8)%nat -> getMaxHePerV (Z.of_nat n) 4.0 = Some (edge7 (Z.of_nat n))) by (intros n Hn; do 8 (destruct n as [|n]; [reflexivity|]); lia).
    specialize (T (Z.to_nat v) ltac:(lia)). rewrite Z2Nat.id in T by lia. exact T. }
  split; [apply adMixed; try (change (edge7 5) with 27); lia|].
  split. { intros X. inversion X; subst. match goal with H : _ <= 28 <= edge7 5 |- _ => revert H end. change (edge7 5) with 27. lia. }
  cbv zeta. split. { eexists. split; [reflexivity|]. cbn. repeat split; discriminate || reflexivity. }
  split; [unfold inside; cbn; lia|]. split; [apply adMixed; try (change (edge7 5) with 27); lia|].
  split; [eexists; split; reflexivity|reflexivity].
Qed.
Print Assumptions c58_psi.
Print Assumptions c58_psi_zero_axes.
Print Assumptions c58_psi_no_loss.
Print Assumptions c58_psi_groups.
