(** Property C21: reported totals. *)
From Verif Require Import TotalsProofs.
Open Scope R_scope.

Lemma proper_at ns cs i : proper ns cs -> (i < length cs)%nat ->
  length (taxes (nth i cs tdummy)) = ns /\ Forall (fun r => 0 <= fst r < snd r)%Z (taxes (nth i cs tdummy)).
Proof. intros H Hi. unfold proper in H. rewrite Forall_forall in H. apply H. apply nth_In. exact Hi. Qed.

(** The concentration: exact for all moments when the minimum size does not cut a
    group; otherwise when the group's moment on the counted axis is zero. *)
Theorem c21_concentration : forall ns cs f mom s m, proper ns cs -> (s < ns)%nat ->
  (forall i, (i < length cs)%nat -> uncut m s (nth i cs tdummy) \/ mom i s = 0) ->
  getTotalConcentration cs f s m = compositionSum cs f mom s m (fun _ _ => 1).
Proof.
  intros ns cs f mom s m HP Hs HU. unfold getTotalConcentration, reduce, compositionSum. apply Rsum_ext. intros i Hi. apply in_seq in Hi.
  destruct (@proper_at ns cs i HP ltac:(lia)) as [HL HA]. cbv zeta.
  rewrite (@cluster_sum f mom ns i _ HL HA s m (fun _ => 1) Hs).
  destruct (HU i ltac:(lia)) as [U|U]; [rewrite (@uncut_zero ns _ HL HA s m Hs U)|rewrite U]; ring_simplify; apply Rsum_ext; intros; ring.
Qed.
Print Assumptions c21_concentration.

Theorem c21_radius : forall ns cs f mom s m, proper ns cs -> (s < ns)%nat ->
  (forall i, (i < length cs)%nat -> uncut m s (nth i cs tdummy) \/ mom i s = 0) ->
  getTotalRadiusConcentration cs f s m = compositionSum cs f mom s m (fun c _ => radius c).
Proof.
  intros ns cs f mom s m HP Hs HU. unfold getTotalRadiusConcentration, reduce, compositionSum. apply Rsum_ext. intros i Hi. apply in_seq in Hi.
  destruct (@proper_at ns cs i HP ltac:(lia)) as [HL HA]. cbv zeta.
  set (c := nth i cs tdummy) in *.
  rewrite (@cluster_sum f mom ns i c HL HA s m (fun _ => radius c) Hs).
  destruct (HU i ltac:(lia)) as [U|U].
  - fold c in U. assert (E : Rsum (from m (axis c s)) (fun j => radius c * dist (axis c s) j) = radius c * Rsum (from m (axis c s)) (fun j => 1 * dist (axis c s) j)).
    { rewrite <- Rsum_scal. apply Rsum_ext. intros; ring. }
    rewrite E, (@uncut_zero ns _ HL HA s m Hs U). ring_simplify. reflexivity.
  - rewrite U. ring_simplify. reflexivity.
Qed.
Print Assumptions c21_radius.

(** The atoms: exact when the moments of the counted axis are zero (any other
    moments, any minimum size). *)
Theorem c21_atoms_partial : forall ns cs f mom s m, proper ns cs -> (s < ns)%nat ->
  (forall i, (i < length cs)%nat -> mom i s = 0) ->
  getTotalAtomConcentration cs f s m = compositionSum cs f mom s m (fun _ x => IZR (nth s x 0%Z)).
Proof.
  intros ns cs f mom s m HP Hs HU. unfold getTotalAtomConcentration, reduce, compositionSum. apply Rsum_ext. intros i Hi. apply in_seq in Hi.
  destruct (@proper_at ns cs i HP ltac:(lia)) as [HL HA]. cbv zeta.
  rewrite (@cluster_sum f mom ns i _ HL HA s m IZR Hs). rewrite HU by lia. ring.
Qed.
Print Assumptions c21_atoms_partial.
(** In general the report misses exactly the moments of that axis. *)
Theorem c21_atoms_defect : forall ns cs f mom s m, proper ns cs -> (s < ns)%nat ->
  compositionSum cs f mom s m (fun _ x => IZR (nth s x 0%Z)) = getTotalAtomConcentration cs f s m +
  Rsum (seq 0 (length cs)) (fun i => let c := nth i cs tdummy in
    mom i s * (factorOf c s * Rsum (from m (axis c s)) (fun j => IZR j * dist (axis c s) j))).
Proof.
  intros ns cs f mom s m HP Hs. unfold getTotalAtomConcentration, reduce, compositionSum. rewrite <- Rsum_plus. apply Rsum_ext.
  intros i Hi. apply in_seq in Hi. destruct (@proper_at ns cs i HP ltac:(lia)) as [HL HA]. cbv zeta.
  rewrite (@cluster_sum f mom ns i _ HL HA s m IZR Hs). reflexivity.
Qed.
Print Assumptions c21_atoms_defect.
Theorem c21_atoms_refuted : exists ns cs f mom s m, proper ns cs /\ (s < ns)%nat /\
  getTotalAtomConcentration cs f s m <> compositionSum cs f mom s m (fun _ x => IZR (nth s x 0%Z)).
Proof.
  exists 1%nat, [Tcl [(1, 3)%Z] 1], (fun _ => 1), (fun _ _ => 1), 0%nat, 0%Z. split; [|split; [lia|]].
  - repeat constructor; cbn; lia.
  - cbv -[IZR Rplus Rmult Rdiv Ropp Rminus Rinv]. lra.
Qed.
Print Assumptions c21_atoms_refuted.
(** A minimum size which cuts a group also spoils the concentration. *)
Theorem c21_cut_refuted : exists ns cs f mom s m, proper ns cs /\ (s < ns)%nat /\
  getTotalConcentration cs f s m <> compositionSum cs f mom s m (fun _ _ => 1).
Proof.
  exists 1%nat, [Tcl [(1, 3)%Z] 1], (fun _ => 1), (fun _ _ => 1), 0%nat, 2%Z. split; [|split; [lia|]].
  - repeat constructor; cbn; lia.
  - cbv -[IZR Rplus Rmult Rdiv Ropp Rminus Rinv]. lra.
Qed.
Print Assumptions c21_cut_refuted.

(** Trapped atoms: with one vacancy species, and no group which holds
    compositions both with and without vacancies, the atoms of the compositions
    with vacancies. *)
Theorem c21_trapped_partial : forall ns cs f mom v s m, proper ns cs -> (s < ns)%nat -> (v < ns)%nat ->
  (forall i, (i < length cs)%nat -> mom i s = 0) ->
  (forall i, (i < length cs)%nat -> (0 < fst (axis (nth i cs tdummy) v))%Z \/ axis (nth i cs tdummy) v = (0, 1)%Z) ->
  getTotalTrappedAtomConcentration cs f [v] s m =
  compositionSum cs f mom s m (fun _ x => if (0 <? nth v x 0)%Z then IZR (nth s x 0%Z) else 0).
Proof.
  intros ns cs f mom v s m HP Hs Hv HM HV. unfold getTotalTrappedAtomConcentration, compositionSum, reduce. cbn [last].
  apply Rsum_ext. intros i Hi. apply in_seq in Hi. destruct (@proper_at ns cs i HP ltac:(lia)) as [HL HA]. cbv zeta.
  set (c := nth i cs tdummy) in *.
  assert (Hin : forall x, In x (comps (taxes c)) -> In (nth v x 0%Z) (inter (axis c v))).
  { intros x Hx. apply (comps_nth _ _ _ Hx). apply (@axis_nth ns c HL v Hv). }
  destruct (HV i ltac:(lia)) as [P|P]; fold c in P.
  - replace (0 <? fst (axis c v))%Z with true by (symmetry; apply Z.ltb_lt; lia).
    rewrite (Rsum_ext (comps _) _ (fun x => if (m <=? nth s x 0)%Z then reconstructed f mom i c x * IZR (nth s x 0%Z) else 0)).
    + rewrite (@cluster_sum f mom ns i c HL HA s m IZR Hs). rewrite HM by lia.
      destruct (@axis_pos ns c HL HA s Hs) as [_ Hp]. rewrite from_spec by exact Hp. ring_simplify. reflexivity.
    + intros x Hx. apply Hin in Hx. apply inter_In in Hx. replace (0 <? nth v x 0)%Z with true by (symmetry; apply Z.ltb_lt; lia). reflexivity.
  - rewrite P. cbn [fst Z.ltb Z.compare]. symmetry. apply Rsum_zero. intros x Hx. apply Hin in Hx. rewrite P in Hx. apply inter_In in Hx. cbn [fst snd] in Hx.
    replace (0 <? nth v x 0)%Z with false by (symmetry; apply Z.ltb_ge; lia). destruct (m <=? _)%Z; ring.
Qed.
Print Assumptions c21_trapped_partial.
(** With several vacancy species only the last one counts. *)
Theorem c21_trapped_refuted : exists cs f, proper 3 cs /\
  getTotalTrappedAtomConcentration cs f [1%nat; 2%nat] 0 0 <>
  compositionSum cs f (fun _ _ => 0) 0 0 (fun _ x => if (0 <? nth 1 x 0 + nth 2 x 0)%Z then IZR (nth 0 x 0%Z) else 0).
Proof.
  exists [Tcl [(2, 3); (4, 5); (0, 1)]%Z 1], (fun _ => 1). split.
  - repeat constructor; cbn; lia.
  - cbv -[IZR Rplus Rmult Rdiv Ropp Rminus Rinv]. lra.
Qed.
Print Assumptions c21_trapped_refuted.

(** Mean ratio of species [s] per vacancy weighted by volume: refuted when a third
    axis is grouped; the numerator misses its width. *)
Theorem c21_ratio_refuted : exists cs f, proper 3 cs /\
  getTotalVolumeRatio cs f [2%nat] 0 0 = 1 / 2 /\
  compositionSum cs f (fun _ _ => 0) 0 0 (fun c x => IZR (nth 0 x 0%Z) / IZR (nth 2 x 0%Z) * (radius c * radius c * radius c)) /
  compositionSum cs f (fun _ _ => 0) 0 0 (fun c x => radius c * radius c * radius c) = 1.
Proof.
  exists [Tcl [(1, 2); (0, 2); (1, 2)]%Z 1], (fun _ => 1). split.
  - repeat constructor; cbn; lia.
  - cbv -[IZR Rplus Rmult Rdiv Ropp Rminus Rinv]. split; field.
Qed.
Print Assumptions c21_ratio_refuted.
Theorem c21_variance_refuted : exists cs f, proper 3 cs /\
  varianceNumerator cs f 2 0 0 0 / ratioDenominator cs f 2 0 0 = 1 / 2 /\
  compositionSum cs f (fun _ _ => 0) 0 0 (fun c x => IZR (nth 0 x 0%Z) / IZR (nth 2 x 0%Z) * (IZR (nth 0 x 0%Z) / IZR (nth 2 x 0%Z))) /
  compositionSum cs f (fun _ _ => 0) 0 0 (fun c x => 1) = 1.
Proof.
  exists [Tcl [(1, 2); (0, 2); (1, 2)]%Z 1], (fun _ => 1). split.
  - repeat constructor; cbn; lia.
  - cbv -[IZR Rplus Rmult Rdiv Ropp Rminus Rinv]. split; field.
Qed.
Print Assumptions c21_variance_refuted.

(** getTotals: every entry is the value of the corresponding single call. *)
Theorem c21_getTotals : forall cs f vs quantities ms k, (k < length ms)%nat ->
  let '(s, m) := nth k quantities (0%nat, 0%Z) in
  getTotalsImpl cs f vs quantities ms k =
  match nth k ms QTotal with
  | QTotal => getTotalConcentration cs f s m
  | QAtom => getTotalAtomConcentration cs f s m
  | QRadius => getTotalRadiusConcentration cs f s m
  | QVolume => reduce cs (fun i c => Rsum (from m (axis c s)) (fun _ => f i * (radius c * radius c * radius c) * factorOf c s))
  | QTrapped => reduce cs (fun i c => match vs with
                  | [] => 0
                  | v :: _ => if (0 <? fst (axis c v))%Z then Rsum (from m (axis c s)) (fun j => f i * IZR j * factorOf c s) else 0
                  end)
  end.
Proof.
  intros cs f vs quantities ms k Hk. pose proof (@getTotals_at cs f vs quantities ms k Hk) as H.
  destruct (nth k quantities (0%nat, 0%Z)) as [s m]. rewrite H.
  unfold getTotalConcentration, getTotalAtomConcentration, getTotalRadiusConcentration, tqValue, tqMethod, tqBase.
  destruct (nth k ms QTotal); unfold reduce; apply Rsum_ext; intros i _; rewrite ?fold_sum, ?Rplus_0_l;
    try (apply Rsum_ext; intros j _; cbn [contribution updateFactor]; ring).
  destruct vs as [|v vs]; [reflexivity|]. destruct (0 <? _)%Z; [|reflexivity]. rewrite ?fold_sum, ?Rplus_0_l.
  apply Rsum_ext; intros j _; cbn [contribution updateFactor]; ring.
Qed.
Print Assumptions c21_getTotals.

(** The two trapped-atom routines agree exactly for networks with at most one
    vacancy species; they use the first and the last one. *)
Theorem c21_trapped_agree_partial : forall ns cs f v q s m, proper ns cs -> (s < ns)%nat ->
  nth 0 q (0%nat, 0%Z) = (s, m) ->
  getTotalsImpl cs f [v] q [QTrapped] 0%nat = getTotalTrappedAtomConcentration cs f [v] s m.
Proof.
  intros ns cs f v q s m HP Hs Eq. pose proof (@c21_getTotals cs f [v] q [QTrapped] 0%nat ltac:(cbn; lia)) as H.
  rewrite Eq in H. rewrite H. cbn [nth]. unfold getTotalTrappedAtomConcentration. cbn [last]. unfold reduce. apply Rsum_ext. intros i Hi.
  apply in_seq in Hi. destruct (@proper_at ns cs i HP ltac:(lia)) as [HL HA]. destruct (0 <? _)%Z; [|reflexivity].
  apply from_spec. apply (@axis_pos ns _ HL HA s Hs).
Qed.
Print Assumptions c21_trapped_agree_partial.
Theorem c21_trapped_agree_refuted : exists cs f, proper 3 cs /\
  getTotalsImpl cs f [1%nat; 2%nat] [(0%nat, 0%Z)] [QTrapped] 0%nat <> getTotalTrappedAtomConcentration cs f [1%nat; 2%nat] 0 0.
Proof.
  exists [Tcl [(2, 3); (4, 5); (0, 1)]%Z 1], (fun _ => 1). split.
  - repeat constructor; cbn; lia.
  - cbv -[IZR Rplus Rmult Rdiv Ropp Rminus Rinv]. lra.
Qed.
Print Assumptions c21_trapped_agree_refuted.

(** He[1,3) V[2,4) with concentration 2 and a moment 5 on V, and V_1. *)
Definition exTot : list tcl := [Tcl [(1, 3); (2, 4)]%Z 3; Tcl [(0, 1); (1, 2)]%Z 1].
Example c21_example : proper 2 exTot /\
  getTotalConcentration exTot (fun _ => 2) 0 1 = 8 /\ getTotalAtomConcentration exTot (fun _ => 2) 0 0 = 12 /\
  compositionSum exTot (fun _ => 2) (fun i k => if Nat.eqb k 1 then 5 else 0) 0 0 (fun _ x => IZR (nth 0 x 0%Z)) = 12 /\
  getTotalTrappedAtomConcentration exTot (fun _ => 2) [1%nat] 0 2 = 8.
Proof.
  split; [repeat constructor; cbn; lia|]. cbv -[IZR Rplus Rmult Rdiv Ropp Rminus Rinv]. repeat split; field.
Qed.
