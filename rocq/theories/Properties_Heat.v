(** C29: Jacobian of the heat equation; C51: positive conductivity and capacity. *)
From Verif Require Import HeatModel HeatProofs.
Open Scope R_scope.

(** A grid point with admissible data; getDAlpha returns 0 (HeatEquationHandler.cpp:229). *)
Definition fine (p : hp) (t : nat -> R) : Prop :=
  0 < alpha p /\ 0 < hhl p /\ 0 < hhr p /\ dAlpha p = 0 /\ 0 < hbeta (t 0%nat) /\ 0 < capacity (t 0%nat).
Lemma fine_rate p t k : fine p t -> is_partial (tempRate p) t k (alongD p t k + extraD p t k).
Proof. intros [H1 [H2 [H3 [H4 [H5 H6]]]]]. apply rate_partial; auto; lra. Qed.
Lemma gamma_pos t : 0 < capacity t -> 0 < hgamma t.
Proof.
  intros H. pose proof density_pos. unfold hgamma. apply Rdiv_lt_0_compat; [lra|]. apply Rmult_lt_0_compat; auto.
Qed.

(** One-dimensional interior points: every entry. *)
Theorem c29_interior_partial p t k : fine p t -> where_ p = Interior -> atInterface p = false -> hdim p = 1%nat ->
  is_partial (tempRate p) t k (tempVal p t k).
Proof.
  intros F Hw Hi Hd. eapply pd_eq; [apply fine_rate; exact F|]. destruct F as [_ [_ [_ [Hda _]]]].
  unfold tempVal, alongD, extraD, interior. rewrite Hw, Hi, Hd, Hda. cbn [Nat.sub seq Rsum].
  destruct k as [|[|[|k]]]; cbn [Nat.ltb Nat.leb andb Nat.mul Nat.add]; unfold Rdiv; ring.
Qed.
(** The entries of the neighbours: every place and every number of dimensions. *)
Theorem c29_neighbours_partial p t k : fine p t -> atInterface p = false -> (1 <= k)%nat -> (1 <= hdim p)%nat ->
  is_partial (tempRate p) t k (tempVal p t k).
Proof.
  intros F Hi Hk Hd. eapply pd_eq; [apply fine_rate; exact F|]. destruct F as [_ [_ [_ [Hda _]]]].
  destruct k as [|[|[|k]]]; [lia| | |];
  unfold tempVal, alongD, extraD, surfaceVal, bulkPortionVal, bulkFluxVal, interior; rewrite ?Hi, ?Hda;
  destruct (where_ p); cbn [Nat.ltb Nat.leb andb]; try (unfold Rdiv; ring).
Qed.
(** The diagonal: what the entry lacks. *)
Definition missing (p : hp) (t : nat -> R) : R :=
  let b := hbeta (t 0%nat) in let g := hgamma (t 0%nat) in let db := dBeta (t 0%nat) in
  let dg := dGamma (t 0%nat) in let ddb := ddBeta (t 0%nat) in let q := bulkFlux (t 0%nat) in
  let a := alpha p in let l := hhl p in let r := hhr p in let h := heat p in
  let others := Rsum (seq 1 (hdim p - 1)) (fun d => a * (db * g + b * dg) * hs p d * (t (2 * d + 1)%nat + t (2 * d + 2)%nat - 2 * t 0%nat)) in
  let diag := Rsum (seq 1 (hdim p - 1)) (fun d => 2 * a * b * g * hs p d) in
  match where_ p with
  | Interior => others
  | Surface => others - diag + 2 * h * h * g * db * db * (a * b * b * b - / (a * b * b * b))
  | BulkPortion por => let w := 1 + (r * por) / l in
      others - diag + 2 * a * (db * g + b * dg) * (1 - por) * (t 1%nat - t 0%nat) / (l * (l + r)) +
      a * (ddb * g + db * dg) * w * w * (t 1%nat - t 0%nat) * (t 1%nat - t 0%nat) / ((l + r) * (l + r))
  | BulkFlux => others - diag + 2 * q * q * g * db * db * (a * b * b * b - / (a * b * b * b))
  end.
Theorem c29_diagonal p t : fine p t -> atInterface p = false -> is_partial (tempRate p) t 0 (tempVal p t 0 + missing p t).
Proof.
  intros F Hi. eapply pd_eq; [apply fine_rate; exact F|]. destruct F as [Ha [Hl [Hr [Hda [Hb _]]]]].
  unfold tempVal, alongD, extraD, missing, surfaceVal, bulkPortionVal, bulkFluxVal, interior. rewrite Hi, Hda.
  destruct (where_ p); unfold Rdiv; ring.
Qed.
Theorem c29_diagonal_iff p t : fine p t -> atInterface p = false ->
  (is_partial (tempRate p) t 0 (tempVal p t 0) <-> missing p t = 0).
Proof.
  intros F Hi. pose proof (c29_diagonal p t F Hi) as H. split; intros E.
  - pose proof (is_partial_unique H E). lra.
  - rewrite E, Rplus_0_r in H. exact H.
Qed.
(** At 1000 K. *)
Lemma at1000 : 0 < hbeta 1000 < 1/1000000 /\ 0 < capacity 1000 /\ dBeta 1000 < 0 /\ 0 < ddBeta 1000 /\ dGamma 1000 < 0.
Proof.
  assert (Hc : 0 < capacity 1000) by (unfold capacity; lra).
  repeat split; try (unfold hbeta, capacity, dBeta, ddBeta; lra).
  unfold dGamma. pose proof density_pos. unfold Rdiv. rewrite Ropp_mult_distr_l_reverse. apply Ropp_lt_gt_0_contravar.
  apply Rmult_lt_0_compat; [lra|]. apply Rinv_0_lt_compat. apply Rmult_lt_0_compat; [apply Rmult_lt_0_compat|]; auto.
Qed.
Definition hot (dT : R) (k : nat) : R := match k with 0%nat => 1000 | _ => 1000 + dT end.
Definition hpAt (w : place) (d : nat) (inter : bool) : hp := Hp 1 2 1 0 5 (fun _ => 1) d w inter.
Lemma fine_at w d i dT : fine (hpAt w d i) (hot dT).
Proof. pose proof at1000 as [H1 [H2 _]]. unfold fine, hpAt, hot. cbn [alpha hhl hhr dAlpha]. repeat split; lra. Qed.
Example interior_ok : fine (hpAt Interior 1 false) (hot 7) /\ where_ (hpAt Interior 1 false) = Interior.
Proof. split; [apply fine_at|reflexivity]. Qed.

(** Two dimensions: the change of conductivity and capacity is missing on the diagonal. *)
Theorem c29_dimensions_refuted : ~ is_partial (tempRate (hpAt Interior 2 false)) (hot 1) 0 (tempVal (hpAt Interior 2 false) (hot 1) 0).
Proof.
  rewrite c29_diagonal_iff by (try apply fine_at; reflexivity).
  pose proof at1000 as [[H1 _] [H2 [H3 [_ H5]]]]. pose proof (gamma_pos _ H2) as HG.
  unfold missing, hpAt. cbn [where_ hdim Nat.sub seq Rsum alpha hs Nat.mul Nat.add hot].
  remember (hbeta 1000) as b. remember (hgamma 1000) as g. remember (dBeta 1000) as db. remember (dGamma 1000) as dg.
  clear - H1 H3 H5 HG. nra.
Qed.
(** At the surface (with a heat flux) the factor a b^3 multiplies instead of dividing. *)
Theorem c29_surface_refuted p t : fine p t -> atInterface p = false -> where_ p = Surface -> hdim p = 1%nat ->
  heat p <> 0 -> dBeta (t 0%nat) <> 0 -> alpha p * hbeta (t 0%nat) ^ 3 <> 1 ->
  ~ is_partial (tempRate p) t 0 (tempVal p t 0).
Proof.
  intros F Hi Hw Hd Hh Hdb Hab. rewrite c29_diagonal_iff by auto. destruct F as [Ha [_ [_ [_ [Hb Hc]]]]]. pose proof (gamma_pos _ Hc) as HG.
  unfold missing. rewrite Hw, Hd. cbn [Nat.sub seq Rsum]. intros E.
  set (x := alpha p * hbeta (t 0%nat) * hbeta (t 0%nat) * hbeta (t 0%nat)) in *.
  assert (Hx : 0 < x) by (unfold x; do 3 (apply Rmult_lt_0_compat; [|exact Hb]); exact Ha).
  assert (Ex : x - / x <> 0).
  { intros E2. apply Hab. replace (alpha p * hbeta (t 0%nat) ^ 3) with x by (unfold x, pow; ring).
    assert (x * x = 1) by (replace (x * x) with ((x - / x) * x + 1) by (field; lra); rewrite E2; ring). nra. }
  assert (N : 2 * heat p * heat p * hgamma (t 0%nat) * dBeta (t 0%nat) * dBeta (t 0%nat) * (x - / x) <> 0).
  { do 6 (apply Rmult_integral_contrapositive_currified; [|first [assumption|lra]]). lra. }
  lra.
Qed.
Example surface_ok : let p := hpAt Surface 1 false in fine p (hot 3) /\ heat p <> 0 /\ dBeta 1000 <> 0 /\ alpha p * hbeta 1000 ^ 3 <> 1.
Proof.
  pose proof at1000 as [[H1 H1'] [H2 [H3 _]]]. split; [apply fine_at|]. unfold hpAt. cbn [heat alpha].
  repeat split; try lra. remember (hbeta 1000) as b. clear - H1 H1'. unfold pow. assert (b * b < 1) by nra. nra.
Qed.
(** At the bulk end with a portion. *)
Theorem c29_portion_refuted : ~ is_partial (tempRate (hpAt (BulkPortion 1) 1 false)) (hot 1) 0 (tempVal (hpAt (BulkPortion 1) 1 false) (hot 1) 0).
Proof.
  rewrite c29_diagonal_iff by (try apply fine_at; reflexivity).
  pose proof at1000 as [[H1 _] [H2 [H3 [H4 H5]]]]. pose proof (gamma_pos _ H2) as HG.
  unfold missing, hpAt. cbn [where_ hdim Nat.sub seq Rsum alpha hs Nat.mul Nat.add hot hhl hhr].
  remember (hbeta 1000) as b. remember (hgamma 1000) as g. remember (dBeta 1000) as db. remember (dGamma 1000) as dg. remember (ddBeta 1000) as ddb.
  clear - H1 H3 H4 H5 HG. assert (0 < ddb * g) by nra. assert (0 < db * dg) by nra. lra.
Qed.
(** At the bulk end with the heat flux. *)
Theorem c29_bulk_flux_refuted p t : fine p t -> atInterface p = false -> where_ p = BulkFlux -> hdim p = 1%nat ->
  bulkFlux (t 0%nat) <> 0 -> dBeta (t 0%nat) <> 0 -> alpha p * hbeta (t 0%nat) ^ 3 <> 1 ->
  ~ is_partial (tempRate p) t 0 (tempVal p t 0).
Proof.
  intros F Hi Hw Hd Hh Hdb Hab. rewrite c29_diagonal_iff by auto. destruct F as [Ha [_ [_ [_ [Hb Hc]]]]]. pose proof (gamma_pos _ Hc) as HG.
  unfold missing. rewrite Hw, Hd. cbn [Nat.sub seq Rsum]. intros E.
  set (x := alpha p * hbeta (t 0%nat) * hbeta (t 0%nat) * hbeta (t 0%nat)) in *. set (q := bulkFlux (t 0%nat)) in *.
  assert (Hx : 0 < x) by (unfold x; do 3 (apply Rmult_lt_0_compat; [|exact Hb]); exact Ha).
  assert (Ex : x - / x <> 0).
  { intros E2. apply Hab. replace (alpha p * hbeta (t 0%nat) ^ 3) with x by (unfold x, pow; ring).
    assert (x * x = 1) by (replace (x * x) with ((x - / x) * x + 1) by (field; lra); rewrite E2; ring). nra. }
  assert (N : 2 * q * q * hgamma (t 0%nat) * dBeta (t 0%nat) * dBeta (t 0%nat) * (x - / x) <> 0).
  { do 6 (apply Rmult_integral_contrapositive_currified; [|first [assumption|lra]]). lra. }
  lra.
Qed.
Example bulk_flux_ok : let p := hpAt BulkFlux 1 false in fine p (hot 3) /\ bulkFlux 1000 <> 0.
Proof. split; [apply fine_at|]. unfold bulkFlux. lra. Qed.
(** At the point which contains the interface the entries are those of the surface, the rate
    is that of an interior point. *)
Theorem c29_interface_refuted p t : fine p t -> atInterface p = true -> where_ p = Interior -> (1 <= hdim p)%nat -> t 1%nat = t 2%nat ->
  ~ is_partial (tempRate p) t 1 (tempVal p t 1).
Proof.
  intros F Hi Hw Hd E12 H. pose proof (is_partial_unique H (fine_rate p t 1 F)) as E.
  destruct F as [Ha [Hl [Hr [_ [Hb Hc]]]]]. pose proof (gamma_pos _ Hc) as HG.
  unfold tempVal, surfaceVal, alongD, extraD in E. rewrite Hi, Hw in E. cbn [Nat.ltb Nat.leb andb] in E. rewrite E12 in E.
  assert (0 < 2 * alpha p * hbeta (t 0%nat) * hgamma (t 0%nat) / (hhl p * (hhl p + hhr p))).
  { apply Rdiv_lt_0_compat; [|apply Rmult_lt_0_compat; lra]. apply Rmult_lt_0_compat; auto. apply Rmult_lt_0_compat; auto. lra. }
  replace (2 * alpha p * dBeta (t 0%nat) * hgamma (t 0%nat) * (t 2%nat - t 2%nat) / ((hhl p + hhr p) * (hhl p + hhr p))) with 0 in E by (field; lra).
  lra.
Qed.
Example interface_ok : let p := hpAt Interior 1 true in fine p (hot 3) /\ hot 3 1 = hot 3 2.
Proof. split; [apply fine_at|reflexivity]. Qed.
Print Assumptions c29_interior_partial.
Print Assumptions c29_neighbours_partial.
Print Assumptions c29_diagonal.
Print Assumptions c29_diagonal_iff.
Print Assumptions c29_dimensions_refuted.
Print Assumptions c29_surface_refuted.
Print Assumptions c29_portion_refuted.
Print Assumptions c29_bulk_flux_refuted.
Print Assumptions c29_interface_refuted.

(** ** C51 *)
Theorem c51_positive_partial t : 0 <= t <= 3000 -> 0 < hbeta t /\ 0 < capacity t /\ 0 < hgamma t.
Proof.
  intros H. assert (Hc : 0 < capacity t) by (unfold capacity; nra). split; [|split; [exact Hc|apply gamma_pos; exact Hc]].
  unfold hbeta. apply Rmult_lt_0_compat; [|lra].
  assert (0 <= t * t <= 9000000) by nra. assert (t * t * t <= 3000 * (t * t)) by nra.
  assert (t * t * t * t <= 9000000 * (t * t)) by nra.
  assert (0 < 2.37e-5 * (t * t) - 0.131 * t + 207) by nra. nra.
Qed.
Example c51_ok : 0 <= 2500 <= 3000. Proof. lra. Qed.
(** Solid tungsten reaches 3695 K; above 3250 K the fitted conductivity is negative. *)
Theorem c51_hot_refuted t : 3250 <= t <= 3695 -> hbeta t < 0.
Proof.
  intros H. unfold hbeta.
  assert (E : 0 < - (-2.4e-12 * t * t * t * t - 3.67e-10 * t * t * t + 4.65e-5 * t * t - 0.131 * t + 207.0)); [|nra].
  assert (H1 : 3250 * 3250 <= t * t <= 3695 * 3695) by nra. assert (H2 : 3250 * (t * t) <= t * t * t) by nra.
  assert (H4 : 3250 * (t * t * t) <= t * t * t * t) by nra.
  nra.
Qed.
Print Assumptions c51_positive_partial.
Print Assumptions c51_hot_refuted.
