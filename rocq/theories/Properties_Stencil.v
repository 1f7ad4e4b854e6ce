(** C26 (diffusion), C27 (advection), C28 (Soret): the Jacobian entries are derivatives. *)
From Verif Require Import StencilModel StencilProofs.
Open Scope R_scope.

(** ** C26. [m]: mask, all stencil points [k]; the middle, left, right, bottom, top, front
    and back values are the derivatives of the contribution to the cluster. *)
Theorem c26_jacobian_1d p m c k : 0 < hl p -> 0 < hr p -> is_partial (diff1 p m) c k (dval1 p m k).
Proof. intros. apply diff1_partial; lra. Qed.
Theorem c26_jacobian_2d p m c k : 0 < hl p -> 0 < hr p -> is_partial (diff2 p m) c k (dval2 p m k).
Proof. intros. apply diff2_partial; lra. Qed.
Theorem c26_jacobian_3d p m c k : 0 < hl p -> 0 < hr p -> is_partial (diff3 p m) c k (dval3 p m k).
Proof. intros. apply diff3_partial; lra. Qed.
Definition pLoc := Loc 1 2 (1/4) (1/9) 3 5 7.
Example pLoc_ok : 0 < hl pLoc /\ 0 < hr pLoc /\ dval3 pLoc (fun _ => 1) 2 = 5 * 2 / 6 + 4 / 9 /\ dval3 pLoc (fun _ => 1) 0 = -10 * (1 / 2 + 1/4 + 1/9).
Proof. unfold pLoc, dval3. cbn [hl hr Dl Dm Dr sy sz]. lra. Qed.

(** Consistency on any spacing: for a coefficient varying linearly with slope [dd], the
    stencil applied to a x^2 + b x + e is D u'' + D' u' up to dd a (hr - hl); exact for a
    constant coefficient and for linear profiles. *)
Theorem c26_consistent_1d p m c a b e dd x :
  0 < hl p -> 0 < hr p -> (forall k, m k = 1) ->
  c 0%nat = quad1 a b e x -> c 1%nat = quad1 a b e (x - hl p) -> c 2%nat = quad1 a b e (x + hr p) ->
  Dr p - Dl p = dd * (hl p + hr p) ->
  diff1 p m c = 2 * a * Dm p + dd * (2 * a * x + b) + dd * a * (hr p - hl p).
Proof. intros. eapply diff1_quadratic; eauto; lra. Qed.
Theorem c26_linear_constant p m c b e x :
  0 < hl p -> 0 < hr p -> (forall k, m k = 1) -> Dl p = Dr p ->
  c 0%nat = b * x + e -> c 1%nat = b * (x - hl p) + e -> c 2%nat = b * (x + hr p) + e -> diff1 p m c = 0.
Proof.
  intros H1 H2 Hm HD H3 H4 H5. rewrite (c26_consistent_1d p m c 0 b e 0 x); auto; unfold quad1; rewrite ?H3, ?H4, ?H5; try ring. rewrite HD. ring.
Qed.
Theorem c26_square_constant p m c a x :
  0 < hl p -> 0 < hr p -> (forall k, m k = 1) -> Dl p = Dr p ->
  c 0%nat = a * x ^ 2 -> c 1%nat = a * (x - hl p) ^ 2 -> c 2%nat = a * (x + hr p) ^ 2 -> diff1 p m c = 2 * a * Dm p.
Proof.
  intros H1 H2 Hm HD H3 H4 H5. rewrite (c26_consistent_1d p m c a 0 0 0 x); auto; unfold quad1; rewrite ?H3, ?H4, ?H5; try ring. rewrite HD. ring.
Qed.
Theorem c26_consistent_2d p m c a b exy gx gy e x y hy :
  0 < hl p -> 0 < hr p -> 0 < hy -> sy p = 1 / (hy * hy) -> Dl p = Dr p -> (forall k, m k = 1) ->
  let u x y := quad3 a b 0 exy 0 0 gx gy 0 e x y 0 in
  c 0%nat = u x y -> c 1%nat = u (x - hl p) y -> c 2%nat = u (x + hr p) y ->
  c 3%nat = u x (y - hy) -> c 4%nat = u x (y + hy) ->
  diff2 p m c = 2 * Dm p * (a + b).
Proof. intros. apply (@diff2_quadratic p m c a b exy gx gy e x y hy); auto; lra. Qed.
Theorem c26_consistent_3d p m c a b d exy exz eyz gx gy gz e x y z hy hz :
  0 < hl p -> 0 < hr p -> 0 < hy -> 0 < hz -> sy p = 1 / (hy * hy) -> sz p = 1 / (hz * hz) -> Dl p = Dr p -> (forall k, m k = 1) ->
  let u := quad3 a b d exy exz eyz gx gy gz e in
  c 0%nat = u x y z -> c 1%nat = u (x - hl p) y z -> c 2%nat = u (x + hr p) y z ->
  c 3%nat = u x (y - hy) z -> c 4%nat = u x (y + hy) z -> c 5%nat = u x y (z - hz) -> c 6%nat = u x y (z + hz) ->
  diff3 p m c = 2 * Dm p * (a + b + d).
Proof. intros. apply (@diff3_quadratic p m c a b d exy exz eyz gx gy gz e x y z hy hz); auto; lra. Qed.
Example consistent_ok :
  let c := fun k => match k with 0%nat => 12 | 1%nat => 3 | _ => 48 end in
  diff1 (Loc 1 2 0 0 5 5 5) (fun _ => 1) c = 2 * 3 * 5 /\ (forall x, x = 2 -> c 0%nat = 3 * x ^ 2 /\ c 1%nat = 3 * (x - 1) ^ 2 /\ c 2%nat = 3 * (x + 2) ^ 2).
Proof. cbn [hl hr Dl Dm Dr]. unfold diff1. cbn [hl hr Dl Dm Dr]. split; [lra|]. intros x ->. lra. Qed.
Print Assumptions c26_jacobian_3d.
Print Assumptions c26_consistent_3d.

(** ** C27 *)
Theorem c27_surface p m c k :
  0 < aT p -> 0 < ah2 p -> 0 < pos p - location p ->
  is_partial (advS p m) c k (match k with 0%nat => advSval p m 0 | 2%nat => advSval p m 1 | _ => 0 end).
Proof. intros. apply advS_partial; lra. Qed.
Definition pAdv := Adv 2 0 1 1 3 5 1000 7 900.
Example pAdv_ok : 0 < aT pAdv /\ 0 < ah2 pAdv /\ 0 < pos pAdv - location pAdv /\ advSval pAdv (fun _ => 1) 1 = 45 / (kB * 1000 * 1 * 3 ^ 4).
Proof. unfold advSval, pAdv. cbn [aT ah2 pos location strength aD]. repeat split; try lra. unfold pow. field. pose proof kB_pos. lra. Qed.
(** Grain boundaries across y (3, 4), z (5, 6) or x (1, 2), when the value is written and
    the stencil is announced for the point itself; every position relative to the sink. *)
Theorem c27_grain_boundary_partial lo hi p c k :
  lo <> hi -> lo <> 0%nat -> hi <> 0%nat -> 0 < aT p -> 0 < ah1 p -> 0 < ah2 p ->
  is_partial (advGB lo hi p) c k (advEntryAt lo hi p p true k).
Proof. intros. apply advGB_partial; auto; lra. Qed.
(** Across y and z in the 2D and 3D solvers the stencil is announced for y = z = 0: still
    right on the side of the origin. *)
Theorem c27_origin_side_partial lo hi p c k :
  lo <> hi -> lo <> 0%nat -> hi <> 0%nat -> 0 < aT p -> 0 < ah1 p -> 0 < ah2 p ->
  0.001 <= location p -> pos p <= location p - 0.001 ->
  is_partial (advGB lo hi p) c k (advEntryAt lo hi (announced p) p true k).
Proof.
  intros Hlh Hl0 Hh0 HT H1 H2 HL HP.
  replace (advEntryAt lo hi (announced p) p true k) with (advEntryAt lo hi p p true k); [apply c27_grain_boundary_partial; auto|].
  unfold advEntryAt. apply Rsum_ext. intros v _. replace (gbPoint lo hi (announced p) v) with (gbPoint lo hi p v); [reflexivity|].
  unfold gbPoint, gbOffset, onSink, above, below, announced. cbn [pos location].
  rewrite !Rabs_right by lra.
  destruct (Rlt_dec (location p - pos p) 0.001), (Rlt_dec (location p - 0) 0.001); try lra.
  destruct (Rlt_dec (location p) (pos p)), (Rlt_dec (location p) 0), (Rlt_dec (pos p) (location p)), (Rlt_dec 0 (location p)); try lra; reflexivity.
Qed.
(** On the other side the value of the far neighbour is added to the entry of the near one. *)
Theorem c27_far_side_refuted lo hi p c :
  lo <> hi -> lo <> 0%nat -> hi <> 0%nat -> 0 < aT p -> 0 < ah1 p -> 0 < ah2 p -> 0 < strength p -> 0 < aD p ->
  0.001 <= location p -> location p + 0.001 <= pos p ->
  ~ is_partial (advGB lo hi p) c hi (advEntryAt lo hi (announced p) p true hi).
Proof.
  intros Hlh Hl0 Hh0 HT H1 H2 Hs HD HL HP H. pose proof kB_pos as HK.
  pose proof (is_partial_unique H (c27_grain_boundary_partial lo hi p c hi Hlh Hl0 Hh0 HT H1 H2)) as E.
  unfold advEntryAt, gbPoint, gbOffset, onSink, above, below, announced, advGBval, gbStep, onSink, above, below in E. cbn [pos location Rsum] in E.
  rewrite (Rabs_left1 (location p - pos p)) in E by lra. rewrite (Rabs_right (location p - 0)) in E by lra.
  destruct (Rlt_dec (- (location p - pos p)) 0.001), (Rlt_dec (location p - 0) 0.001); try lra.
  destruct (Rlt_dec (location p) (pos p)), (Rlt_dec (location p) 0), (Rlt_dec (pos p) (location p)), (Rlt_dec 0 (location p)); try lra.
  cbn [b2n b2r Z.of_nat Z.sub Z.add Z.opp Z.pos_sub offPoint Z.eqb Z.ltb Z.compare Pos.of_succ_nat] in E.
  rewrite Nat.eqb_refl in E. destruct (Nat.eqb_spec lo hi); [contradiction|]. destruct (Nat.eqb_spec 0 hi); [congruence|].
  remember (- (location p - pos p) + (ah2 p * 1 + ah1 p * 0)) as b. assert (0 < b) by lra.
  assert (0 < 3 * strength p * aD p / (kB * aT p * (b * b * b * b) * (ah2 p * 1 + ah1 p * 0))).
  { apply Rdiv_lt_0_compat; [apply Rmult_lt_0_compat; lra|].
    apply Rmult_lt_0_compat; [apply Rmult_lt_0_compat; [apply Rmult_lt_0_compat; lra|]|lra].
    apply Rmult_lt_0_compat; [apply Rmult_lt_0_compat; [apply Rmult_lt_0_compat|]|]; lra. }
  lra.
Qed.
Definition pGB := Adv 8 5 1 1 3 5 1000 5 1000.
Example pGB_ok : 0 < aT pGB /\ 0 < ah1 pGB /\ 0 < ah2 pGB /\ 0 < strength pGB /\ 0 < aD pGB /\ 0.001 <= location pGB /\ location pGB + 0.001 <= pos pGB.
Proof. unfold pGB. cbn [aT ah1 ah2 strength aD location pos]. lra. Qed.
(** The x handler in two or three dimensions writes nothing on the sink
    (XGBAdvectionHandler.cpp:200). *)
Theorem c27_x_sink_refuted p c :
  onSink p = true -> 0 < aT p -> 0 < ah1 p -> 0 < ah2 p -> 0 < strength p -> 0 < aD p ->
  ~ is_partial (advGB 1 2 p) c 1 (advEntryAt 1 2 p p false 1).
Proof. intros. apply advGB_unwritten; auto; discriminate. Qed.
Example pSink_ok : let p := Adv 5 5 1 1 3 5 1000 5 1000 in onSink p = true /\ 0 < aT p /\ 0 < ah1 p /\ 0 < ah2 p /\ 0 < strength p /\ 0 < aD p.
Proof. cbn. unfold onSink. cbn [location pos]. rewrite Rminus_diag_eq, Rabs_R0 by reflexivity. destruct (Rlt_dec 0 0.001); [repeat split; auto; lra|lra]. Qed.
(** In one dimension, where it would be written, the size check of the handler fails. *)
Theorem c27_x_one_dimension_refuted (x : R) : guard 5 3 x = None /\ guard 5 5 x = Some x /\ guard 3 3 x = Some x.
Proof. repeat split. Qed.
Print Assumptions c27_surface.
Print Assumptions c27_grain_boundary_partial.
Print Assumptions c27_origin_side_partial.
Print Assumptions c27_far_side_refuted.
Print Assumptions c27_x_sink_refuted.
Print Assumptions c27_x_one_dimension_refuted.

(** ** C28. Concentrations: exact when one of the three is not near zero. Missing: the
    temperatures, and three vanishing concentrations (below). *)
Theorem c28_concentrations_partial id eps p c k :
  0 < shl p -> 0 < shr p -> (eps <= Rabs (c 0%nat) \/ eps <= Rabs (c 1%nat) \/ eps <= Rabs (c 2%nat)) ->
  is_partial (soretFlux p) c k (soretEntry id eps p c id k).
Proof.
  intros Hl Hr H. unfold soretEntry. rewrite Nat.eqb_refl. apply soret_partial; try lra.
  unfold nearZero. destruct (Rlt_dec (Rabs (c 0%nat)) eps), (Rlt_dec (Rabs (c 1%nat)) eps), (Rlt_dec (Rabs (c 2%nat)) eps); cbn; auto. lra.
Qed.
(** For concentrations below the threshold the derivative is not zero but the entry is. *)
Theorem c28_vanishing_refuted id eps p c :
  0 < shl p -> 0 < shr p -> 0 < eps -> (forall k, c k = 0) -> 0 < beta p -> 0 < sDm p -> sTl p <> sTr p ->
  ~ is_partial (soretFlux p) c 1 (soretEntry id eps p c id 1).
Proof.
  intros Hl Hr He Hc Hb HD HT H. unfold soretEntry in H. rewrite Nat.eqb_refl in H.
  assert (H1 : is_partial (soretFlux p) c 1 (beta p * sDm p * (sTr p - sTl p) / ((shl p + shr p) * (shl p + shr p)))).
  { apply pd_affine. intros t. unfold soretFlux, setc. cbn [Nat.eqb]. field. lra. }
  pose proof (is_partial_unique H H1) as E. unfold soretVal, nearZero in E. rewrite !Hc, Rabs_R0 in E.
  destruct (Rlt_dec 0 eps); [|lra]. cbn [andb] in E.
  assert (beta p * sDm p * (sTr p - sTl p) = 0).
  { replace (beta p * sDm p * (sTr p - sTl p)) with (beta p * sDm p * (sTr p - sTl p) / ((shl p + shr p) * (shl p + shr p)) * ((shl p + shr p) * (shl p + shr p))) by (field; lra). rewrite <- E. ring. }
  assert (0 < beta p * sDm p) by (apply Rmult_lt_0_compat; auto).
  apply HT. apply Rmult_integral in H0. lra.
Qed.
(** The exact derivatives with respect to the temperatures... *)
Theorem c28_temperatures p c T k : 0 < shl p -> 0 < shr p ->
  is_partial (fun T => soretFlux (withT p T) c) T k (soretTval p c k).
Proof. intros. apply soret_T_partial; lra. Qed.
(** ... are not entered: whenever the cluster is present (and drifts) the middle entry is wrong. *)
Theorem c28_temperatures_refuted id dof eps p c T :
  id <> dof -> 0 < shl p -> 0 < shr p -> 0 < beta p -> 0 < sDm p -> 0 < c 0%nat ->
  ~ is_partial (fun T => soretFlux (withT p T) c) T 0 (soretEntry id eps p c dof 0).
Proof.
  intros Hi Hl Hr Hb HD Hc H. pose proof (is_partial_unique H (c28_temperatures p c T 0 Hl Hr)) as E.
  unfold soretEntry, soretTval in E. destruct (Nat.eqb_spec dof id); [congruence|].
  assert (0 < 2 * beta p * sDm p * c 0%nat / (shl p * shr p)).
  { apply Rdiv_lt_0_compat; repeat apply Rmult_lt_0_compat; lra. }
  lra.
Qed.
Definition pSoret := Soret 1 2 (65/10000) 1 2 3 900 1000 1100.
Example pSoret_ok : 0 < shl pSoret /\ 0 < shr pSoret /\ 0 < beta pSoret /\ 0 < sDm pSoret /\ sTl pSoret <> sTr pSoret /\
  soretTval pSoret (fun _ => 1) 0 = 2 * (65/10000) * 2 / 2.
Proof. unfold pSoret, soretTval. cbn [shl shr beta sDm sTl sTr]. lra. Qed.
Print Assumptions c28_concentrations_partial.
Print Assumptions c28_vanishing_refuted.
Print Assumptions c28_temperatures.
Print Assumptions c28_temperatures_refuted.
