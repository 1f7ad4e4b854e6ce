(** The Jacobian entries of diffusion, advection and Soret diffusion are the
    derivatives of the fluxes; consistency of the diffusion stencil. *)
From Verif Require Import StencilModel.
From Coq Require Import FunctionalExtensionality ZArith.
Open Scope R_scope.

Lemma pd_affine (f : (nat -> R) -> R) c j B :
  (forall t, f (setc c j t) = f (setc c j 0) + B * t) -> is_partial f c j B.
Proof.
  intros H. unfold is_partial.
  replace (fun t => f (setc c j t)) with (fun t => f (setc c j 0) + B * t) by (extensionality t; symmetry; apply H).
  pose proof (derivable_pt_lim_plus _ _ _ _ _ (derivable_pt_lim_const (f (setc c j 0)) (c j))
                (derivable_pt_lim_scal _ B _ _ (derivable_pt_lim_id (c j)))) as D.
  replace (0 + B * 1) with B in D by ring. exact D.
Qed.

Ltac stencil := unfold setc; cbn [Nat.eqb].

Section DIFF.
Variables (p : loc) (m : nat -> R).
Hypotheses (Hl : hl p <> 0) (Hr : hr p <> 0) (Hlr : hl p + hr p <> 0).

Lemma diff1_partial c k : is_partial (diff1 p m) c k (dval1 p m k).
Proof using Hl Hr Hlr.
  apply pd_affine. intros t. unfold diff1, dval1.
  destruct k as [|[|[|k]]]; stencil; field; auto.
Qed.
Lemma diff2_partial c k : is_partial (diff2 p m) c k (dval2 p m k).
Proof using Hl Hr Hlr.
  apply pd_affine. intros t. unfold diff2, dval2.
  destruct k as [|[|[|[|[|k]]]]]; stencil; field; auto.
Qed.
Lemma diff3_partial c k : is_partial (diff3 p m) c k (dval3 p m k).
Proof using Hl Hr Hlr.
  apply pd_affine. intros t. unfold diff3, dval3.
  destruct k as [|[|[|[|[|[|[|k]]]]]]]; stencil; field; auto.
Qed.
End DIFF.

(** ** Consistency. Spec: the value at position x of the operator (D c')' for the
    polynomial profiles. *)
Definition quad1 (a b e x : R) : R := a * (x * x) + b * x + e.
Lemma diff1_quadratic p m c a b e dd x :
  hl p <> 0 -> hr p <> 0 -> hl p + hr p <> 0 ->
  (forall k, m k = 1) -> c 0%nat = quad1 a b e x -> c 1%nat = quad1 a b e (x - hl p) -> c 2%nat = quad1 a b e (x + hr p) ->
  Dr p - Dl p = dd * (hl p + hr p) ->
  diff1 p m c = 2 * a * Dm p + dd * (2 * a * x + b) + dd * a * (hr p - hl p).
Proof.
  intros Hl Hr Hlr Hm E0 E1 E2 ED. unfold diff1. rewrite !Hm, E0, E1, E2, ED. unfold quad1. field. auto.
Qed.

Definition quad3 (a b d exy exz eyz gx gy gz e x y z : R) : R :=
  a * (x * x) + b * (y * y) + d * (z * z) + exy * (x * y) + exz * (x * z) + eyz * (y * z) + gx * x + gy * y + gz * z + e.
Lemma diff3_quadratic p m c a b d exy exz eyz gx gy gz e x y z hy hz :
  hl p <> 0 -> hr p <> 0 -> hl p + hr p <> 0 -> hy <> 0 -> hz <> 0 -> sy p = 1 / (hy * hy) -> sz p = 1 / (hz * hz) ->
  Dl p = Dr p -> (forall k, m k = 1) ->
  let u := quad3 a b d exy exz eyz gx gy gz e in
  c 0%nat = u x y z -> c 1%nat = u (x - hl p) y z -> c 2%nat = u (x + hr p) y z ->
  c 3%nat = u x (y - hy) z -> c 4%nat = u x (y + hy) z -> c 5%nat = u x y (z - hz) -> c 6%nat = u x y (z + hz) ->
  diff3 p m c = 2 * Dm p * (a + b + d).
Proof.
  intros Hl Hr Hlr Hy Hz Ey Ez ED Hm u E0 E1 E2 E3 E4 E5 E6. unfold diff3.
  rewrite !Hm, E0, E1, E2, E3, E4, E5, E6, ED, Ey, Ez. unfold u, quad3. field. auto.
Qed.
Lemma diff2_quadratic p m c a b exy gx gy e x y hy :
  hl p <> 0 -> hr p <> 0 -> hl p + hr p <> 0 -> hy <> 0 -> sy p = 1 / (hy * hy) ->
  Dl p = Dr p -> (forall k, m k = 1) ->
  let u x y := quad3 a b 0 exy 0 0 gx gy 0 e x y 0 in
  c 0%nat = u x y -> c 1%nat = u (x - hl p) y -> c 2%nat = u (x + hr p) y ->
  c 3%nat = u x (y - hy) -> c 4%nat = u x (y + hy) ->
  diff2 p m c = 2 * Dm p * (a + b).
Proof.
  intros Hl Hr Hlr Hy Ey ED Hm u E0 E1 E2 E3 E4. unfold diff2.
  rewrite !Hm, E0, E1, E2, E3, E4, ED, Ey. unfold u, quad3. field. auto.
Qed.

(** ** Sign: what an empty point receives. *)
Lemma diff1_empty_nonneg p m c :
  0 < hl p -> 0 < hr p -> (forall k, 0 <= m k) -> (forall k, 0 <= c k) -> c 0%nat = 0 ->
  Dr p - Dl p <= 2 * Dm p * (hl p + hr p) / hl p ->
  Dl p - Dr p <= 2 * Dm p * (hl p + hr p) / hr p ->
  0 <= diff1 p m c.
Proof.
  intros Hl Hr Hm Hc E0 H1 H2.
  assert (E : diff1 p m c =
    (c 1%nat * m 1%nat) * ((2 * Dm p * (hl p + hr p) / hl p - (Dr p - Dl p)) / ((hl p + hr p) * (hl p + hr p))) +
    (c 2%nat * m 2%nat) * ((2 * Dm p * (hl p + hr p) / hr p - (Dl p - Dr p)) / ((hl p + hr p) * (hl p + hr p)))).
  { unfold diff1. rewrite E0. field. lra. }
  rewrite E. clear E.
  assert (0 < (hl p + hr p) * (hl p + hr p)) by (apply Rmult_lt_0_compat; lra).
  apply Rplus_le_le_0_compat; (apply Rmult_le_pos; [apply Rmult_le_pos; auto|]);
    unfold Rdiv at 1; (apply Rmult_le_pos; [lra|]); left; apply Rinv_0_lt_compat; auto.
Qed.
(** The condition is necessary: a single filled left neighbour. *)
Lemma diff1_empty_negative p m c :
  0 < hl p -> 0 < hr p -> m 1%nat = 1 -> 0 < c 1%nat -> c 0%nat = 0 -> c 2%nat = 0 ->
  2 * Dm p * (hl p + hr p) / hl p < Dr p - Dl p ->
  diff1 p m c < 0.
Proof.
  intros Hl Hr Hm Hc E0 E2 H1.
  assert (E : diff1 p m c =
    - (c 1%nat * (((Dr p - Dl p) - 2 * Dm p * (hl p + hr p) / hl p) / ((hl p + hr p) * (hl p + hr p))))).
  { unfold diff1. rewrite E0, E2, Hm. field. lra. }
  rewrite E. apply Ropp_lt_gt_0_contravar. apply Rmult_lt_0_compat; auto.
  apply Rdiv_lt_0_compat; [lra|]. apply Rmult_lt_0_compat; lra.
Qed.

(** ** Advection *)
Lemma kB_pos : 0 < kB. Proof. unfold kB. lra. Qed.

Lemma advS_partial p m c k :
  aT p <> 0 -> ah2 p <> 0 -> pos p - location p <> 0 -> pos p - location p + ah2 p <> 0 ->
  is_partial (advS p m) c k
    (match k with 0%nat => advSval p m 0 | 2%nat => advSval p m 1 | _ => 0 end).
Proof.
  intros HT Hh Hd Hd2. pose proof kB_pos. apply pd_affine. intros t. unfold advS, advSval.
  remember (pos p - location p) as d. remember (aDr p / aTr p - aD p / aT p) as q. unfold pow. clear Heqd Heqq.
  destruct k as [|[|[|k]]]; stencil; field; repeat split; lra.
Qed.

Lemma sides p : onSink p = false -> above p <> below p.
Proof.
  unfold onSink, above, below. destruct (Rlt_dec (Rabs (location p - pos p)) 0.001) as [|H]; [discriminate|]. intros _.
  destruct (Rlt_dec (location p) (pos p)), (Rlt_dec (pos p) (location p)); try lra; try discriminate.
  exfalso. apply H. replace (location p - pos p) with 0 by lra. rewrite Rabs_R0. lra.
Qed.

(** The entries when the stencil is announced for the position itself. *)
Definition advEntry (lo hi : nat) (p : adv) (written : bool) (k : nat) : R := advEntryAt lo hi p p written k.
Lemma advGB_partial lo hi p c k :
  lo <> hi -> lo <> 0%nat -> hi <> 0%nat -> aT p <> 0 -> 0 < ah1 p -> 0 < ah2 p ->
  is_partial (advGB lo hi p) c k (advEntry lo hi p true k).
Proof.
  intros Hlh Hl0 Hh0 HT H1 H2. pose proof kB_pos as HK.
  pose proof (sides p) as HS.
  assert (HA : onSink p = false -> 0 < Rabs (location p - pos p)).
  { unfold onSink. destruct (Rlt_dec (Rabs (location p - pos p)) 0.001); [discriminate|]. lra. }
  apply pd_affine. intros t. unfold advGB, advEntry, advEntryAt, gbPoint, gbIndex, gbOffset, advGBval, gbStep, offPoint.
  destruct (onSink p).
  - clear HS HA. cbn [Rsum Z.opp Z.eqb Z.ltb Z.compare]. unfold setc.
    rewrite (Nat.eqb_sym lo k), (Nat.eqb_sym hi k). rewrite ?(Nat.eqb_sym k).
    destruct (Nat.eqb_spec lo k), (Nat.eqb_spec hi k); try congruence; field; repeat split; lra.
  - specialize (HS eq_refl). specialize (HA eq_refl). remember (Rabs (location p - pos p)) as a. clear Heqa.
    destruct (above p), (below p); try congruence; cbn [Rsum b2n b2r Nat.mul Nat.add Z.of_nat Z.sub Z.add Z.opp Z.pos_sub Z.eqb Z.ltb Z.compare Pos.of_succ_nat];
    rewrite ?Nat.mul_1_r, ?Nat.mul_0_r, ?Nat.add_0_r, ?Nat.add_0_l; unfold setc; rewrite ?(Nat.eqb_sym k).
    + destruct (Nat.eqb_spec 0 k), (Nat.eqb_spec hi k); try congruence; field; repeat split; lra.
    + destruct (Nat.eqb_spec 0 k), (Nat.eqb_spec lo k); try congruence; field; repeat split; lra.
Qed.

(** On the sink the X handler writes nothing unless the dimension is 1. *)
Lemma advGB_unwritten lo hi p c :
  onSink p = true -> lo <> hi -> lo <> 0%nat -> hi <> 0%nat -> 0 < aT p -> 0 < ah1 p -> 0 < ah2 p -> 0 < strength p -> 0 < aD p ->
  ~ is_partial (advGB lo hi p) c lo (advEntry lo hi p false lo).
Proof.
  intros HS Hlh Hl0 Hh0 HT H1 H2 Hs HD H. pose proof kB_pos as HK.
  assert (HTn : aT p <> 0) by lra.
  pose proof (@advGB_partial lo hi p c lo Hlh Hl0 Hh0 HTn H1 H2) as H'.
  pose proof (is_partial_unique H H') as E. unfold advEntry, advEntryAt, gbPoint, gbOffset, offPoint, advGBval in E. rewrite HS in E.
  cbn [Rsum Z.opp Z.eqb Z.ltb Z.compare] in E. rewrite Nat.eqb_refl in E.
  destruct (Nat.eqb_spec hi lo); [congruence|].
  assert (0 < 3 * strength p * aD p / (kB * aT p * ah1 p ^ 5)).
  { apply Rdiv_lt_0_compat; [repeat apply Rmult_lt_0_compat; lra|].
    apply Rmult_lt_0_compat; [apply Rmult_lt_0_compat; lra|]. apply pow_lt; auto. }
  lra.
Qed.

(** What an empty point receives from advection is not negative. *)
Lemma pow4_pos x : 0 < x -> 0 < x ^ 4. Proof. intros; apply pow_lt; auto. Qed.
Lemma advS_empty_nonneg p m c :
  0 < strength p -> 0 <= aD p -> 0 < aT p -> 0 < ah2 p -> 0 < pos p - location p ->
  (forall k, 0 <= m k) -> (forall k, 0 <= c k) -> c 0%nat = 0 -> 0 <= advS p m c.
Proof.
  intros Hs HD HT Hh Hd Hm Hc E. pose proof kB_pos as HK. unfold advS. rewrite E.
  remember (pos p - location p) as d. clear Heqd.
  replace (_ + _) with ((3 * strength p * aD p) * (c 2%nat * m 2%nat / (d + ah2 p) ^ 4) / (kB * aT p * ah2 p)) by (unfold Rdiv; ring).
  unfold Rdiv. repeat apply Rmult_le_pos; auto; try lra.
  - left. apply Rinv_0_lt_compat. apply pow4_pos. lra.
  - left. apply Rinv_0_lt_compat. apply Rmult_lt_0_compat; [apply Rmult_lt_0_compat|]; lra.
Qed.

(** ** Soret diffusion *)
Lemma soret_partial eps p c k :
  shl p <> 0 -> shr p <> 0 -> shl p + shr p <> 0 ->
  nearZero eps (c 0%nat) && nearZero eps (c 1%nat) && nearZero eps (c 2%nat) = false ->
  is_partial (soretFlux p) c k (soretVal eps p c k).
Proof.
  intros Hl Hr Hlr H. apply pd_affine. intros t. unfold soretFlux, soretVal. rewrite H.
  destruct k as [|[|[|k]]]; stencil; field; auto.
Qed.
(** With respect to the temperatures: the exact derivatives, none of which is entered
    in the matrix. *)
Definition withT (p : soret) (T : nat -> R) : soret :=
  Soret (shl p) (shr p) (beta p) (sDl p) (sDm p) (sDr p) (T 1%nat) (T 0%nat) (T 2%nat).
Definition soretTval (p : soret) (c : nat -> R) (k : nat) : R :=
  match k with
  | 0%nat => 2 * beta p * sDm p * c 0%nat / (shl p * shr p)
  | 1%nat => - 2 * beta p * sDm p * c 0%nat / (shl p * (shl p + shr p)) +
             beta p * (sDm p * (c 2%nat - c 1%nat) + c 0%nat * (sDr p - sDl p)) / ((shl p + shr p) * (shl p + shr p))
  | 2%nat => - 2 * beta p * sDm p * c 0%nat / (shr p * (shl p + shr p)) -
             beta p * (sDm p * (c 2%nat - c 1%nat) + c 0%nat * (sDr p - sDl p)) / ((shl p + shr p) * (shl p + shr p))
  | _ => 0
  end.
Lemma soret_T_partial p c T k :
  shl p <> 0 -> shr p <> 0 -> shl p + shr p <> 0 ->
  is_partial (fun T => soretFlux (withT p T) c) T k (soretTval p c k).
Proof.
  intros Hl Hr Hlr. apply pd_affine. intros t. unfold soretFlux, soretTval, withT.
  destruct k as [|[|[|k]]]; cbn [beta shl shr sDl sDm sDr sTl sTm sTr]; stencil; field; auto.
Qed.
