(** C96: the volume fraction of bubbles. *)
From Coq Require Import Lra Lia.
From Verif Require Import FractionModel TotalsProofs Properties_Totals.
Open Scope R_scope.

(** The volume of a sphere. *)
Definition ball (r : R) : R := 4 / 3 * PI * r ^ 3.

Lemma third : 4.0 * PI / 3.0 = 4 / 3 * PI.
Proof. lra. Qed.
(** Every composition with at least the minimum size counts with the sphere of the radius of its cluster. *)
Theorem c96_law ns cs f mom s m : proper ns cs -> (s < ns)%nat ->
  (forall i, (i < length cs)%nat -> uncut m s (nth i cs tdummy) \/ mom i s = 0) ->
  getTotalVolumeFraction cs f s m = compositionSum cs f mom s m (fun c _ => ball (radius c)).
Proof.
  intros HP Hs HU. unfold getTotalVolumeFraction, reduce, compositionSum. rewrite third, <- Rsum_scal_r. apply Rsum_ext. intros i Hi. apply in_seq in Hi.
  destruct (proper_at ns cs i HP ltac:(lia)) as [HL HA]. cbv zeta. set (c := nth i cs tdummy) in *.
  rewrite (@cluster_sum f mom ns i c HL HA s m (fun _ => ball (radius c)) Hs).
  assert (Z : mom i s * (factorOf c s * Rsum (from m (axis c s)) (fun j => ball (radius c) * dist (axis c s) j)) = 0).
  { destruct (HU i ltac:(lia)) as [U|U]; [|rewrite U; ring]. fold c in U.
    assert (E : Rsum (from m (axis c s)) (fun j => ball (radius c) * dist (axis c s) j) = ball (radius c) * Rsum (from m (axis c s)) (fun j => 1 * dist (axis c s) j))
      by (rewrite <- Rsum_scal; apply Rsum_ext; intros; ring).
    rewrite E, (@uncut_zero ns _ HL HA s m Hs U). ring. }
  rewrite Z, Rplus_0_r, <- Rsum_scal_r. apply Rsum_ext. intros j _. unfold ball. field.
Qed.
Print Assumptions c96_law.

(** It is never negative and counts less from a larger minimum size. *)
Lemma factor_pos ns c s : length (taxes c) = ns -> Forall (fun r => 0 <= fst r < snd r)%Z (taxes c) -> (s < ns)%nat -> 0 < factorOf c s.
Proof.
  intros HL HA Hs. pose proof (@axis_pos ns c HL HA s Hs) as A. unfold factorOf, len. apply Rdiv_lt_0_compat; apply IZR_lt; [|lia].
  clear Hs A HL. induction HA as [|r l Hr HA IH]; cbn; [lia|]. unfold len in *. apply Z.mul_pos_pos; [lia|exact IH].
Qed.
Theorem c96_smaller ns cs f s m m' : proper ns cs -> (s < ns)%nat -> (m <= m')%Z ->
  (forall i, (i < length cs)%nat -> 0 <= f i /\ 0 <= radius (nth i cs tdummy)) ->
  0 <= getTotalVolumeFraction cs f s m' <= getTotalVolumeFraction cs f s m.
Proof.
  intros HP Hs Hm H. pose proof PI_RGT_0.
  assert (T : forall (i : nat) (j : Z), (i < length cs)%nat -> 0 <= f i * (radius (nth i cs tdummy) * radius (nth i cs tdummy) * radius (nth i cs tdummy)) * factorOf (nth i cs tdummy) s).
  { intros i _ Hi. destruct (H i Hi). destruct (proper_at ns cs i HP Hi) as [HL HA]. pose proof (factor_pos ns _ s HL HA Hs).
    apply Rmult_le_pos; [|lra]. apply Rmult_le_pos; [lra|]. apply Rmult_le_pos; [apply Rmult_le_pos|]; lra. }
  unfold getTotalVolumeFraction, reduce. split.
  - apply Rmult_le_pos; [|lra]. apply Rsum_nonneg. intros i Hi. apply in_seq in Hi. apply Rsum_nonneg. intros j _. apply T; [exact j|lia].
  - apply Rmult_le_compat_r; [lra|]. apply Rsum_le. intros i Hi. apply in_seq in Hi. destruct (proper_at ns cs i HP ltac:(lia)) as [HL HA].
    pose proof (@axis_pos ns _ HL HA s Hs) as A. rewrite !from_spec by lia. apply Rsum_le. intros j _.
    pose proof (T i j ltac:(lia)). destruct (Z.leb_spec m' j), (Z.leb_spec m j); try lia; lra.
Qed.
Print Assumptions c96_smaller.

(** ** What the coupled code gets *)
(** The same in every dimension; but the sum of the cubes of the radii, without 4/3 of Pi: less than a quarter of the fraction. *)
Lemma handed_eq dim cs f vs xe ms : handed dim cs f vs xe ms = getTotalVolumeFraction cs f xe ms / (4 / 3 * PI).
Proof.
  assert (E : handed dim cs f vs xe ms = reduce cs (fun i c => Rsum (from ms (axis c xe)) (fun _ => f i * (radius c * radius c * radius c) * factorOf c xe))).
  { unfold handed. destruct (dim =? 1)%nat; [pose proof (c21_getTotals cs f vs [(xe, 1); (xe, 1); (xe, 1); (xe, ms); (xe, ms); (xe, ms); (xe, ms)]%Z
      [QTotal; QAtom; QRadius; QTotal; QAtom; QRadius; QVolume] 6 ltac:(cbn; lia)) as H|
      pose proof (c21_getTotals cs f vs [(xe, 1); (xe, 1); (xe, 1); (xe, ms); (xe, ms); (xe, ms)]%Z [QTotal; QAtom; QRadius; QTotal; QRadius; QVolume] 5 ltac:(cbn; lia)) as H]; exact H. }
  rewrite E. unfold getTotalVolumeFraction. rewrite third. pose proof PI_RGT_0. field. lra.
Qed.
Theorem c96_dimensions dim cs f vs xe ms : handed dim cs f vs xe ms = handed 1 cs f vs xe ms.
Proof. rewrite !handed_eq. reflexivity. Qed.
Print Assumptions c96_dimensions.
Theorem c96_handed_refuted dim ns cs f mom vs xe ms : proper ns cs -> (xe < ns)%nat ->
  (forall i, (i < length cs)%nat -> uncut ms xe (nth i cs tdummy) \/ mom i xe = 0) ->
  let fraction := compositionSum cs f mom xe ms (fun c _ => ball (radius c)) in
  handed dim cs f vs xe ms * (4 / 3 * PI) = fraction /\ (0 < fraction -> handed dim cs f vs xe ms < fraction / 4).
Proof.
  intros HP Hs HU fraction. rewrite handed_eq, (c96_law ns cs f mom xe ms HP Hs HU). fold fraction. pose proof PI_RGT_0. pose proof PI2_3_2. unfold PI2 in *. split; [field; lra|].
  intros Hf. apply (Rmult_lt_reg_r (4 / 3 * PI)); [lra|]. replace (fraction / (4 / 3 * PI) * (4 / 3 * PI)) with fraction by (field; lra). nra.
Qed.
Print Assumptions c96_handed_refuted.

(** ** Groups: the sphere of the mean radius is smaller than the mean of the spheres *)
Lemma cube_above r m : 0 <= r -> 0 <= m -> m ^ 3 + 3 * m ^ 2 * (r - m) <= r ^ 3.
Proof. intros. assert (0 <= (r - m) ^ 2 * (r + 2 * m)) by (apply Rmult_le_pos; [apply pow2_ge_0|lra]). lra. Qed.
Lemma cube_strict r m : 0 <= r -> 0 < m -> r <> m -> m ^ 3 + 3 * m ^ 2 * (r - m) < r ^ 3.
Proof.
  intros H H0 N. assert (0 < (r - m) ^ 2) by (assert (r - m <> 0) by lra; replace ((r - m) ^ 2) with (Rsqr (r - m)) by (unfold Rsqr; ring); apply Rlt_0_sqr; assumption).
  assert (0 < (r - m) ^ 2 * (r + 2 * m)) by (apply Rmult_lt_0_compat; lra). lra.
Qed.
Section MEAN.
Variables (l : list Z) (rho : Z -> R) (m : R).
Hypothesis mean : INR (length l) * m = Rsum l rho.
Hypothesis H0 : forall j, In j l -> 0 <= rho j.
Lemma mean_cube : 0 <= m -> Rsum l (fun _ => m ^ 3) <= Rsum l (fun j => rho j ^ 3).
Proof.
  intros Hm. apply Rle_trans with (Rsum l (fun j => m ^ 3 + 3 * m ^ 2 * (rho j - m))).
  - rewrite Rsum_plus, Rsum_scal, Rsum_minus, !Rsum_const, <- mean. lra.
  - apply Rsum_le. intros j Hj. apply cube_above; auto.
Qed.
Lemma mean_cube_strict : 0 < m -> (exists j, In j l /\ rho j <> m) -> Rsum l (fun _ => m ^ 3) < Rsum l (fun j => rho j ^ 3).
Proof.
  intros Hm (j & Hj & N). assert (P : 0 < Rsum l (fun j => rho j ^ 3 - (m ^ 3 + 3 * m ^ 2 * (rho j - m)))).
  { apply Rsum_pos; [intros k Hk; pose proof (cube_above (rho k) m (H0 k Hk)); lra|]. exists j. split; [exact Hj|]. pose proof (cube_strict (rho j) m (H0 j Hj) Hm N). lra. }
  rewrite Rsum_minus, Rsum_plus, Rsum_scal, Rsum_minus, !Rsum_const, <- mean in P. rewrite Rsum_const. lra.
Qed.
End MEAN.
(** The radius of a cluster is the mean of those of its sizes (C61), [rho]. *)
Definition meanRadius (rho : Z -> R) (s : nat) (c : tcl) : Prop := IZR (len (axis c s)) * radius c = Rsum (inter (axis c s)) rho.
Lemma inter_length r : (fst r < snd r)%Z -> INR (length (inter r)) = IZR (len r).
Proof. intros H. unfold inter. rewrite map_length, seq_length, INR_IZR_INZ, Z2Nat.id; [reflexivity|unfold len; lia]. Qed.
Lemma uncut_from m c s : uncut m s c -> from m (axis c s) = inter (axis c s).
Proof. intros U. unfold from, uncut in *. rewrite Z.max_r by lia. destruct (axis c s); reflexivity. Qed.
Theorem c96_groups ns cs f mom s m rho : proper ns cs -> (s < ns)%nat -> (forall j, 0 < rho j) ->
  (forall i, (i < length cs)%nat -> uncut m s (nth i cs tdummy) /\ mom i s = 0 /\ 0 <= f i /\ meanRadius rho s (nth i cs tdummy)) ->
  let volume := compositionSum cs f mom s m (fun _ x => ball (rho (nth s x 0%Z))) in
  getTotalVolumeFraction cs f s m <= volume /\
  ((exists i j k, (i < length cs)%nat /\ 0 < f i /\ In j (inter (axis (nth i cs tdummy) s)) /\ In k (inter (axis (nth i cs tdummy) s)) /\ rho j <> rho k) ->
    getTotalVolumeFraction cs f s m < volume).
Proof.
  intros HP Hs Hr H volume.
  assert (Hd : forall i, (i < length cs)%nat -> let c := nth i cs tdummy in
    0 < factorOf c s * (4 / 3 * PI) /\ 0 < radius c /\ 0 <= f i /\
    Rsum (from m (axis c s)) (fun _ => f i * (radius c * radius c * radius c) * factorOf c s) * (4.0 * PI / 3.0) = f i * (factorOf c s * (4 / 3 * PI)) * Rsum (inter (axis c s)) (fun _ => radius c ^ 3) /\
    Rsum (comps (taxes c)) (fun x => if (m <=? nth s x 0)%Z then reconstructed f mom i c x * ball (rho (nth s x 0%Z)) else 0) = f i * (factorOf c s * (4 / 3 * PI)) * Rsum (inter (axis c s)) (fun j => rho j ^ 3) /\
    INR (length (inter (axis c s))) * radius c = Rsum (inter (axis c s)) rho).
  { intros i Hi c. destruct (proper_at ns cs i HP Hi) as [HL HA]. destruct (H i Hi) as (U & M & F & R). fold c in U, R, HL, HA. pose proof (@axis_pos ns c HL HA s Hs) as A. pose proof PI_RGT_0.
    split; [apply Rmult_lt_0_compat; [apply (factor_pos ns); assumption|lra]|]. split.
    { assert (P : 0 < Rsum (inter (axis c s)) rho) by (apply Rsum_pos; [intros; left; apply Hr|exists (fst (axis c s)); split; [apply inter_In; lia|apply Hr]]).
      unfold meanRadius in R. rewrite <- R in P. assert (0 < IZR (len (axis c s))) by (apply IZR_lt; unfold len; lia). destruct (Rlt_le_dec 0 (radius c)) as [L|L]; [exact L|]. nra. }
    split; [exact F|]. split; [rewrite third, (uncut_from m c s U), <- Rsum_scal_r, <- Rsum_scal; apply Rsum_ext; intros; field|]. split.
    - rewrite (@cluster_sum f mom ns i c HL HA s m (fun j => ball (rho j)) Hs), M, (uncut_from m c s U). rewrite Rmult_0_l, Rplus_0_r, <- Rsum_scal. apply Rsum_ext. intros; unfold ball; field.
    - rewrite inter_length by lia. exact R. }
  assert (E1 : getTotalVolumeFraction cs f s m = Rsum (seq 0 (length cs)) (fun i => let c := nth i cs tdummy in f i * (factorOf c s * (4 / 3 * PI)) * Rsum (inter (axis c s)) (fun _ => radius c ^ 3))).
  { unfold getTotalVolumeFraction, reduce. rewrite <- Rsum_scal_r. apply Rsum_ext. intros i Hi. apply in_seq in Hi. apply (Hd i ltac:(lia)). }
  assert (E2 : volume = Rsum (seq 0 (length cs)) (fun i => let c := nth i cs tdummy in f i * (factorOf c s * (4 / 3 * PI)) * Rsum (inter (axis c s)) (fun j => rho j ^ 3))).
  { unfold volume, compositionSum. apply Rsum_ext. intros i Hi. apply in_seq in Hi. apply (Hd i ltac:(lia)). }
  rewrite E1, E2.
  assert (LE : forall i, (i < length cs)%nat -> let c := nth i cs tdummy in f i * (factorOf c s * (4 / 3 * PI)) * Rsum (inter (axis c s)) (fun _ => radius c ^ 3) <= f i * (factorOf c s * (4 / 3 * PI)) * Rsum (inter (axis c s)) (fun j => rho j ^ 3)).
  { intros i Hi c. destruct (Hd i Hi) as (G & R & F & _ & _ & M). apply Rmult_le_compat_l; [apply Rmult_le_pos; [exact F|left; exact G]|]. apply (mean_cube _ rho _ M); [intros; left; apply Hr|left; exact R]. }
  split.
  - apply Rsum_le. intros i Hi. apply in_seq in Hi. apply LE. lia.
  - intros (i & j & k & Hi & Fi & Hj & Hk & N). apply Rminus_gt_0_lt. rewrite <- Rsum_minus. apply Rlt_gt. apply Rsum_pos.
    + intros i' Hi'. apply in_seq in Hi'. pose proof (LE i' ltac:(lia)) as L. cbv zeta in L |- *. lra.
    + exists i. split; [apply in_seq; lia|]. cbv zeta. destruct (Hd i Hi) as (G & R & F & _ & _ & M). set (c := nth i cs tdummy) in *.
      rewrite <- Rmult_minus_distr_l. apply Rmult_lt_0_compat; [apply Rmult_lt_0_compat; assumption|]. apply Rlt_Rminus.
      apply (mean_cube_strict _ rho _ M); [intros; left; apply Hr|exact R|]. destruct (Req_dec (rho j) (radius c)) as [E|E]; [exists k|exists j]; split; try assumption. congruence.
Qed.
Print Assumptions c96_groups.
(** Two sizes of the radii 1 and 2 in a group with the radius 3/2: 27/4 instead of 9. *)
Example c96_ok : let cs := [Tcl [(1, 3)%Z] (3 / 2)] in let f := fun _ : nat => 1 in let rho := fun j => if (j =? 1)%Z then 1 else 2 in
  proper 1 cs /\ uncut 1 0 (nth 0 cs tdummy) /\ meanRadius rho 0 (nth 0 cs tdummy) /\ (forall j, 0 < rho j) /\ rho 1%Z <> rho 2%Z /\ In 1%Z (inter (axis (nth 0 cs tdummy) 0)) /\ In 2%Z (inter (axis (nth 0 cs tdummy) 0)) /\
  getTotalVolumeFraction cs f 0 1 = 27 / 4 * (4 / 3 * PI) /\ handed 2 cs f [] 0 1 = 27 / 4 /\ compositionSum cs f (fun _ _ => 0) 0 1 (fun _ x => ball (rho (nth 0 x 0%Z))) = 9 * (4 / 3 * PI).
Proof.
  cbv zeta. split; [repeat constructor; cbn; lia|]. split; [unfold uncut; cbn; lia|]. split; [unfold meanRadius; change (2 * (3 / 2) = 1 + (2 + 0)); lra|].
  split; [intros j; destruct (j =? 1)%Z; lra|]. split; [cbn; lra|]. split; [apply inter_In; cbn; lia|]. split; [apply inter_In; cbn; lia|].
  assert (E : getTotalVolumeFraction [Tcl [(1, 3)%Z] (3 / 2)] (fun _ => 1) 0 1 = 27 / 4 * (4 / 3 * PI)) by (unfold getTotalVolumeFraction, factorOf; rewrite third; cbv -[IZR Rplus Rmult Rdiv Ropp Rminus Rinv PI]; field).
  split; [exact E|]. split; [rewrite handed_eq, E; pose proof PI_RGT_0; field; lra|]. cbv -[IZR Rplus Rmult Rdiv Ropp Rminus Rinv PI]. field.
Qed.
