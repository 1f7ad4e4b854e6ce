(** C91: how fast clusters find each other in zirconium and in the alloys. *)
From Coq Require Import Lia Lra.
From Verif Require Import CaptureModel MobilityProofs Properties_Mobility Properties_Radius.
From Verif Require Properties_Energy.
Open Scope R_scope.

(** ** The capture radii *)
Lemma powers x (q : R) (k m : nat) : 0 < x -> q * INR k = INR m -> Rpower x q ^ k = x ^ m.
Proof. intros Hx E. rewrite <- Rpower_pow by apply exp_pos. rewrite Rpower_mult, E. apply Rpower_pow; exact Hx. Qed.
Ltac nats := cbn [INR]; lra.
(** A radius [c], of a law with the prefactor [a] and the exponent m / k: positive, and (c / a)^k = n^m. *)
Definition law (a : R) (m k : nat) (n : Z) (c : R) : Prop := 0 < c /\ (c / a) ^ k = IZR n ^ m.
Lemma law_of a q m k n c : 0 < a -> (1 <= n)%Z -> q * INR k = INR m -> c = a * Rpower (IZR n) q -> law a m k n c.
Proof.
  intros Ha Hn E ->. assert (0 < IZR n) by (apply IZR_lt; lia). split; [apply Rmult_lt_0_compat; [exact Ha|apply exp_pos]|].
  replace (a * Rpower (IZR n) q / a) with (Rpower (IZR n) q) by (field; lra). apply powers; assumption.
Qed.
Lemma capture_at tr k b e : (k < 3)%nat -> (1 <= b)%Z -> capture tr (zr k b e) = match k with O => captureV b | 1%nat => captureB tr b | _ => captureI b end.
Proof.
  intros Hk Hb. assert (C : (k = 0 \/ k = 1 \/ k = 2)%nat) by lia.
  destruct C as [->|[->| ->]]; unfold capture, zrOnV, zrOnB, zrOnI, on3, zr; cbn; destruct (Z.eqb_spec b 0); try lia; reflexivity.
Qed.
Ltac lawly q := apply law_of with q; [lra|lia|rewrite INR_IZR_INZ, INR_IZR_INZ; cbn; lra|lra].
Theorem c91_capture tr b e : (1 <= b < 1000)%Z ->
  (law 0.28 3 20 b (fst (capture tr (zr 0 b e))) /\ law 0.2 3 10 b (snd (capture tr (zr 0 b e)))) /\
  ((b < tr)%Z -> fst (capture tr (zr 1 b e)) = 1.1) /\ ((tr <= b)%Z -> law 0.52 3 50 b (fst (capture tr (zr 1 b e)))) /\ law 0.155 7 25 b (snd (capture tr (zr 1 b e))) /\
  law 0.45 41 200 b (fst (capture tr (zr 2 b e))) /\ law 0.6 2 25 b (snd (capture tr (zr 2 b e))).
Proof.
  intros H. rewrite !capture_at by lia. unfold captureV, captureB, captureI. destruct (Z.ltb_spec b 1000); [|lia]. cbn [fst snd].
  split; [split|split; [|split; [|split; [|split]]]].
  - lawly 0.15.
  - lawly 0.3.
  - intros L. destruct (Z.ltb_spec b tr); [reflexivity|lia].
  - intros L. destruct (Z.ltb_spec b tr); [lia|]. lawly 0.06.
  - lawly 0.28.
  - lawly 0.205.
  - lawly 0.08.
Qed.
Print Assumptions c91_capture.
Theorem c91_capture_large tr b e : (1000 <= b)%Z ->
  capture tr (zr 0 b e) = (0.79, 1.59) /\ capture tr (zr 1 b e) = (0.787, 1.072) /\ capture tr (zr 2 b e) = (1.85, 1.04).
Proof. intros H. rewrite !capture_at by lia. unfold captureV, captureB, captureI. destruct (Z.ltb_spec b 1000); [lia|]. auto. Qed.
Print Assumptions c91_capture_large.
Lemma law_grows a m k n n' c c' : (0 < m)%nat -> (0 < k)%nat -> 0 < a -> (1 <= n < n')%Z -> law a m k n c -> law a m k n' c' -> c < c'.
Proof.
  intros Hm Hk Ha Hn [P E] [P' E']. destruct (Rlt_le_dec c c') as [|L]; [assumption|exfalso].
  assert (N : 0 < IZR n < IZR n') by (split; apply IZR_lt; lia).
  assert (A : IZR n ^ m < IZR n' ^ m). { destruct m as [|m]; [lia|]. clear - N. induction m as [|m IH]; [lra|]. cbn [pow] in *. apply Rmult_le_0_lt_compat; try lra. left. apply (pow_lt (IZR n) (S m)); lra. }
  assert (B : (c' / a) ^ k <= (c / a) ^ k). { apply pow_incr. split; [left; apply Rdiv_lt_0_compat; lra|]. apply Rmult_le_compat_r; [left; apply Rinv_0_lt_compat; lra|lra]. }
  lra.
Qed.
(** Below 1000 they grow with the size of the loop, except at the transition size. *)
Theorem c91_grows tr k b b' e e' : (k < 3)%nat -> (1 <= b < b')%Z -> (b' < 1000)%Z ->
  (k <> 1%nat \/ (tr <= b)%Z -> fst (capture tr (zr k b e)) < fst (capture tr (zr k b' e'))) /\ snd (capture tr (zr k b e)) < snd (capture tr (zr k b' e')).
Proof.
  intros Hk Hb Hb'. destruct (c91_capture tr b e ltac:(lia)) as ((V1 & V2) & _ & B1 & B2 & I1 & I2). destruct (c91_capture tr b' e' ltac:(lia)) as ((V1' & V2') & _ & B1' & B2' & I1' & I2').
  assert (C : (k = 0 \/ k = 1 \/ k = 2)%nat) by lia. destruct C as [->|[->| ->]].
  - split; [intros _|]; [eapply (law_grows 0.28 3 20)|eapply (law_grows 0.2 3 10)]; eauto; try lia; lra.
  - split; [intros [F|L]; [congruence|]|].
    + specialize (B1 L). specialize (B1' ltac:(lia)). eapply (law_grows 0.52 3 50); eauto; try lia; lra.
    + eapply (law_grows 0.155 7 25); eauto; try lia; lra.
  - split; [intros _|]; [eapply (law_grows 0.45 41 200)|eapply (law_grows 0.6 2 25)]; eauto; try lia; lra.
Qed.
Print Assumptions c91_grows.
(** The constants for the larger loops are those which the laws reach at 1000, within half a percent of a nanometre. *)
Lemma law_between a m k n c x y : (0 < k)%nat -> 0 < a -> 0 < x -> law a m k n c -> (x / a) ^ k < IZR n ^ m -> IZR n ^ m < (y / a) ^ k -> 0 < y -> x < c < y.
Proof.
  intros Hk Ha Hx [P E] L U Hy.
  assert (G : forall u v, 0 < u -> 0 < v -> (u / a) ^ k < (v / a) ^ k -> u < v).
  { intros u v Hu Hv H. destruct (Rlt_le_dec u v) as [|N]; [assumption|exfalso].
    assert ((v / a) ^ k <= (u / a) ^ k); [|lra]. apply pow_incr. split; [left; apply Rdiv_lt_0_compat; lra|]. apply Rmult_le_compat_r; [left; apply Rinv_0_lt_compat; lra|lra]. }
  split; apply G; auto; lra.
Qed.
Theorem c91_continuous c : (law 0.28 3 20 1000 c -> Rabs (c - 0.79) < 0.005) /\ (law 0.2 3 10 1000 c -> Rabs (c - 1.59) < 0.005) /\ (law 0.52 3 50 1000 c -> Rabs (c - 0.787) < 0.005) /\
  (law 0.155 7 25 1000 c -> Rabs (c - 1.072) < 0.005) /\ (law 0.45 41 200 1000 c -> Rabs (c - 1.85) < 0.005) /\ (law 0.6 2 25 1000 c -> Rabs (c - 1.04) < 0.005).
Proof.
  repeat split; intros L.
  - destruct (law_between 0.28 3 20 1000 c 0.786 0.794 ltac:(lia) ltac:(lra) ltac:(lra) L); try lra. apply Rabs_def1; lra.
  - destruct (law_between 0.2 3 10 1000 c 1.586 1.594 ltac:(lia) ltac:(lra) ltac:(lra) L); try lra. apply Rabs_def1; lra.
  - destruct (law_between 0.52 3 50 1000 c 0.783 0.791 ltac:(lia) ltac:(lra) ltac:(lra) L); try lra. apply Rabs_def1; lra.
  - destruct (law_between 0.155 7 25 1000 c 1.068 1.076 ltac:(lia) ltac:(lra) ltac:(lra) L); try lra. apply Rabs_def1; lra.
  - destruct (law_between 0.45 41 200 1000 c 1.8501 1.8549 ltac:(lia) ltac:(lra) ltac:(lra) L); try lra. apply Rabs_def1; lra.
  - destruct (law_between 0.6 2 25 1000 c 1.0401 1.0449 ltac:(lia) ltac:(lra) ltac:(lra) L); try lra. apply Rabs_def1; lra.
Qed.
Print Assumptions c91_continuous.
(** At the transition size the radius of a basal loop for interstitials drops from 1.1 to less than 0.79. *)
Theorem c91_grows_refuted tr e e' : (10 < tr < 1000)%Z -> fst (capture tr (zr 1 (tr - 1) e)) = 1.1 /\ fst (capture tr (zr 1 tr e')) < 0.79.
Proof.
  intros H. split; [apply c91_capture; lia|]. destruct (c91_capture tr tr e' ltac:(lia)) as (_ & _ & B1 & _). specialize (B1 ltac:(lia)). set (c := fst (capture tr (zr 1 tr e'))) in *.
  assert (K : law 0.52 3 50 1000 (0.52 * Rpower (IZR 1000) 0.06)) by lawly 0.06.
  pose proof (law_grows 0.52 3 50 tr 1000 _ _ ltac:(lia) ltac:(lia) ltac:(lra) ltac:(lia) B1 K).
  destruct (law_between 0.52 3 50 1000 _ 0.783 0.79 ltac:(lia) ltac:(lra) ltac:(lra) K); lra.
Qed.
Print Assumptions c91_grows_refuted.
Example c91_capture_ok : law 0.28 3 20 1 0.28 /\ capture 325 (zr 2 1200 1201) = (1.85, 1.04) /\ (10 < 325 < 1000)%Z.
Proof. split; [split; [lra|]|split; [apply c91_capture_large; lia|lia]]. replace (0.28 / 0.28) with 1 by lra. rewrite !pow1. reflexivity. Qed.

(** ** The rates in zirconium *)
(** The clusters which move (C60): vacancies up to 6, interstitials up to 3. *)
Definition moves (k : nat) (b : Z) : Prop := (k = 0%nat /\ (b <= 6)%Z) \/ (k = 2%nat /\ (b <= 3)%Z).
Lemma pure_zr k b e : (k < 3)%nat -> (1 <= b)%Z -> pure 3 k (zr k b e) /\ ib (axis k (zr k b e)) = b /\ nonnegs (zr k b e).
Proof.
  intros Hk Hb. assert (C : (k = 0 \/ k = 1 \/ k = 2)%nat) by lia.
  destruct C as [->|[->| ->]]; (split; [split; [cbn; lia|intros j Hj N; destruct j as [|[|[|j]]]; cbn; lia]|split; [reflexivity|]]);
    intros j; destruct j as [|[|[|j]]]; cbn; try lia; destruct j; cbn; lia.
Qed.
Lemma moving k b e : (k < 3)%nat -> (1 <= b)%Z -> moves k b -> exists da ea dc ec, 0 < da /\ 0 < dc /\ anisotropic (zr k b e) da ea dc ec /\ zrDiffusion (zr k b e) = 1.
Proof.
  intros Hk Hb HM. destruct (pure_zr k b e Hk Hb) as (P & E & _). destruct (c60_zr_parameters (zr k b e)) as [HV HI].
  assert (D : zrDiffusion (zr k b e) = 1).
  { unfold zrDiffusion. destruct HM as [[-> L]|[-> L]]; unfold zrOnV, zrOnI, on3, zr; cbn; destruct (Z.eqb_spec b 0); try lia; cbn; [destruct (Z.leb_spec b 6)|destruct (Z.leb_spec b 3)]; try lia; reflexivity. }
  destruct HM as [[-> L]|[-> L]].
  - destruct (HV P) as (A1 & A2 & A3 & A4 & A5 & A6). assert (C : (b = 1 \/ b = 2 \/ b = 3 \/ b = 4 \/ b = 5 \/ b = 6)%Z) by lia.
    destruct C as [C|[C|[C|[C|[C|C]]]]]; rewrite C in *; [specialize (A1 E)|specialize (A2 E)|specialize (A3 E)|specialize (A4 E)|specialize (A5 E)|specialize (A6 E)];
    do 4 eexists; (split; [|split; [|split; [eassumption|exact D]]]); lra.
  - destruct (HI P) as (A1 & A2 & A3). assert (C : (b = 1 \/ b = 2 \/ b = 3)%Z) by lia.
    destruct C as [C|[C|C]]; rewrite C in *; [specialize (A1 E)|specialize (A2 E)|specialize (A3 E)];
    do 4 eexists; (split; [|split; [|split; [eassumption|exact D]]]); lra.
Qed.
Lemma coefficient_of r da ea dc ec T : 0 < T -> 0 < da -> 0 < dc -> anisotropic r da ea dc ec -> zrDiffusion r = 1 ->
  let Da := arrhenius da ea T in let Dc := arrhenius dc ec T in
  zrCoefficient r T = Some (root3 (Da * Da * Dc)) /\ anisotropyRatio r T = Rpower (Dc / Da) (1 / 6) /\ 0 < root3 (Da * Da * Dc) /\ 0 < anisotropyRatio r T.
Proof.
  intros HT H1 H2 A D. cbv zeta. specialize (A T HT). cbv zeta in A. unfold zrCoefficient, anisotropyRatio. rewrite A, D. rewrite updated_large by lra.
  split; [reflexivity|]. split; [reflexivity|]. split; [|apply exp_pos]. apply root3_pos. apply Rmult_lt_0_compat; [apply Rmult_lt_0_compat|]; (apply Rmult_lt_0_compat; [assumption|apply exp_pos]).
Qed.
Lemma moving_coefficient k b e T : (k < 3)%nat -> (1 <= b)%Z -> 0 < T -> moves k b -> exists d, 0 < d /\ 0 < anisotropyRatio (zr k b e) T /\ zrCoefficient (zr k b e) T = Some d.
Proof.
  intros Hk Hb HT HM. destruct (moving k b e Hk Hb HM) as (da & ea & dc & ec & P1 & P2 & A & D). destruct (coefficient_of _ _ _ _ _ T HT P1 P2 A D) as (E & _ & Q1 & Q2). eauto.
Qed.
Lemma still k b e T : (k < 3)%nat -> (1 <= b)%Z -> ~ moves k b -> zrCoefficient (zr k b e) T = Some 0.
Proof.
  intros Hk Hb HM. unfold zrCoefficient.
  assert (D : zrDiffusion (zr k b e) = 0).
  { destruct (Req_dec (zrDiffusion (zr k b e)) 0) as [E|N]; [exact E|]. destruct (pure_zr k b e Hk Hb) as (P & E & NN). apply c60_zr_who in N; [|exact NN]. exfalso. apply HM.
    destruct N as [[[Q1 Q2] L]|[[Q1 Q2] L]]; destruct P as [P1 P2].
    - left. destruct (Nat.eq_dec k 0) as [->|N]; [split; [reflexivity|]; rewrite E in L; exact L|]. elim Q1. apply P2; [lia|auto].
    - right. destruct (Nat.eq_dec k 2) as [->|N]; [split; [reflexivity|]; rewrite E in L; exact L|]. elim Q1. apply P2; [lia|auto]. }
  assert (U : exists x p, zrUpdate (zrDiffusion (zr k b e)) (zr k b e) T = Some (x, p)).
  { unfold zrUpdate. destruct (zrMigration (zr k b e)) as [m|] eqn:EM; [|eauto]. destruct (Rlt_dec m 0); [|eauto].
    exfalso. unfold zrMigration in EM. unfold zrDiffusion in D. destruct (zrOnV _ && _); [lra|]. destruct (zrOnI _ && (_ <=? 3)%Z)%bool; [lra|]. destruct (zrOnI _ && _); [injection EM as <-; lra|discriminate]. }
  destruct U as (x & p & ->). rewrite D, updated_zero. reflexivity.
Qed.
Lemma zr_seen tr k b e : (k < 3)%nat -> (1 <= b)%Z -> zrSeen tr (zr k b e) = Zr (k =? 0)%nat (k =? 1)%nat b (zrRadius tr (zr k b e)) (fst (capture tr (zr k b e))) (snd (capture tr (zr k b e))).
Proof.
  intros Hk Hb. assert (C : (k = 0 \/ k = 1 \/ k = 2)%nat) by lia. unfold zrSeen.
  destruct C as [->|[->| ->]]; unfold zrOnV, zrOnB, zrOnI, on3; cbn [zr map seq Nat.eqb axis nth ib]; destruct (Z.eqb_spec b 0); try lia; reflexivity.
Qed.
Lemma radius_pos tr k b e : (k < 3)%nat -> (1 <= b < e)%Z -> 0 < zrRadius tr (zr k b e).
Proof.
  intros Hk Hb. rewrite zr_radius by lia. unfold mean. apply Rdiv_lt_0_compat; [|apply IZR_lt; lia].
  assert (K : forall n, In n (zlist b (e - 1)) -> 0 < zrLaw tr k b n); [|apply Rsum_pos; [intros n Hn; left; apply K; exact Hn|exists b; split; [|apply K]; apply zlist_In; lia]].
  intros n Hn. apply zlist_In in Hn. assert (N : 0 < IZR n) by (apply IZR_lt; lia).
  assert (S0 : 0 < sqrt (IZR n)) by (apply sqrt_lt_R0; lra).
  assert (PT : 0 < zrPoint b n) by (unfold zrPoint; destruct (b <? 10)%Z; [apply root3_pos|]; lra).
  assert (C : (k = 0 \/ k = 1 \/ k = 2)%nat) by lia. destruct C as [->|[->| ->]]; cbn [zrLaw]; try exact PT.
  destruct (Z_lt_dec b tr); [rewrite zrBasal_low by lia|unfold zrBasalPoint; destruct (Z.ltb_spec b tr); [lia|lra]].
  apply Rdiv_lt_0_compat; [|lra]. apply sqrt_lt_R0. destruct basal_range. apply Rmult_lt_0_compat; lra.
Qed.
Lemma capture_pos tr k b e : (k < 3)%nat -> (1 <= b)%Z -> 0 < fst (capture tr (zr k b e)) /\ 0 < snd (capture tr (zr k b e)).
Proof.
  intros Hk Hb. destruct (Z_lt_dec b 1000).
  - destruct (c91_capture tr b e ltac:(lia)) as (([V1 _] & [V2 _]) & B0 & B1 & [B2 _] & [I1 _] & [I2 _]).
    assert (B : 0 < fst (capture tr (zr 1 b e))). { destruct (Z_lt_dec b tr) as [L|L]; [rewrite (B0 L); lra|]. destruct (B1 ltac:(lia)) as [B _]. exact B. }
    assert (C : (k = 0 \/ k = 1 \/ k = 2)%nat) by lia. destruct C as [->|[->| ->]]; auto.
  - destruct (c91_capture_large tr b e ltac:(lia)) as (V & B & I). assert (C : (k = 0 \/ k = 1 \/ k = 2)%nat) by lia. destruct C as [->|[->| ->]]; [rewrite V|rewrite B|rewrite I]; cbn [fst snd]; lra.
Qed.
Lemma loopRate_pos (l o : EnergyModel.zr) p dc n : 0 < zR l -> 0 < zR o -> 0 < zRdI l -> 0 < zRdV l -> 0 < p -> 0 < dc -> 0 < loopRate l o p dc n.
Proof.
  intros H1 H2 H3 H4 Hp Hd. unfold loopRate. assert (HR : 0 < rd l o) by (unfold rd; destruct (zV o); assumption). pose proof PI_RGT_0 as HPI.
  set (s := zR o + rd l o) in *. assert (Hs : 0 < s) by (unfold s; lra). apply Rmult_lt_0_compat; [|exact Hd].
  set (q := zR l / (3 * s)). assert (Hq : 0 < q) by (apply Rdiv_lt_0_compat; lra). assert (Q2 : 0 < Rsqr q) by (unfold Rsqr; apply Rmult_lt_0_compat; exact Hq).
  assert (A : 0 < / (1 + Rsqr q) < 1). { split; [apply Rinv_0_lt_compat; lra|]. rewrite <- Rinv_1. apply Rinv_lt_contravar; lra. }
  assert (S0 : 0 < 4 * PI * (zR l + zR o + rd l o)) by (apply Rmult_lt_0_compat; lra).
  assert (T0 : 0 < 4 * PI * PI * zR l / ln (1 + 8 * zR l / s)).
  { apply Rdiv_lt_0_compat; [apply Rmult_lt_0_compat; [nra|lra]|]. rewrite <- ln_1. apply ln_increasing; [lra|]. assert (0 < 8 * zR l / s) by (apply Rdiv_lt_0_compat; lra). lra. }
  assert (G : forall x y z, 0 < x - z -> 0 <= y -> z < x -> 0 < p -> 0 < z -> z <= y -> 0 < x * / Rsqr p + y * p - z).
  { intros x y z Hxz Hy Hzx _ Hz Hzy. assert (P2 : 0 < Rsqr p) by (unfold Rsqr; nra). destruct (Rle_lt_dec p 1) as [L|L].
    - assert (1 <= / Rsqr p). { rewrite <- Rinv_1. apply Rinv_le_contravar; [exact P2|]. unfold Rsqr. nra. } nra.
    - assert (0 < / Rsqr p) by (apply Rinv_0_lt_compat; exact P2). nra. }
  assert (P0 : 0 < (if zV l then 0.78 * / Rsqr p + 0.66 * p - 0.44 else if zBasal l then p else 0.70 * / Rsqr p + 0.78 * p - 0.47)).
  { destruct (zV l); [apply G; lra|]. destruct (zBasal l); [exact Hp|apply G; lra]. }
  set (Pl := if zV l then _ else _) in *. set (tor := 4 * PI * PI * zR l / _) in *. set (sph := 4 * PI * _) in *.
  destruct (negb (zV l) && zBasal l && (zSize l <? n)%Z)%bool.
  - replace (1 - 1) with 0 by lra. lra.
  - assert (0 < (1 - / (1 + Rsqr q)) * tor * Pl) by (apply Rmult_lt_0_compat; [apply Rmult_lt_0_compat; lra|exact P0]). assert (0 < / (1 + Rsqr q) * sph) by (apply Rmult_lt_0_compat; lra). lra.
Qed.
(** When one of the two moves, the rate is positive. *)
Theorem c91_positive tr k b e k' b' e' T : (k < 3)%nat -> (1 <= b < e)%Z -> (k' < 3)%nat -> (1 <= b' < e')%Z -> 0 < T -> moves k b \/ moves k' b' ->
  exists x, zrPair tr (zr k b e) (zr k' b' e') T = Some x /\ 0 < x.
Proof.
  intros Hk Hb Hk' Hb' HT HM.
  assert (D : exists d d', zrCoefficient (zr k b e) T = Some d /\ zrCoefficient (zr k' b' e') T = Some d' /\ 0 < d + d' /\ 0 < ratioOf (zr k b e) (zr k' b' e') T d d').
  { unfold ratioOf.
    assert (M : moves k b \/ ~ moves k b) by (unfold moves; lia). assert (M' : moves k' b' \/ ~ moves k' b') by (unfold moves; lia).
    destruct M as [M|M], M' as [M'|M']; [| | |tauto].
    - destruct (moving_coefficient k b e T Hk ltac:(lia) HT M) as (d & D1 & D2 & D3). destruct (moving_coefficient k' b' e' T Hk' ltac:(lia) HT M') as (d' & D1' & D2' & D3').
      exists d, d'. destruct (Rlt_dec 0 d); [|lra]. repeat split; auto; lra.
    - destruct (moving_coefficient k b e T Hk ltac:(lia) HT M) as (d & D1 & D2 & D3). exists d, 0. rewrite (still k' b' e' T) by (auto; lia). destruct (Rlt_dec 0 d); [|lra]. repeat split; auto; lra.
    - destruct (moving_coefficient k' b' e' T Hk' ltac:(lia) HT M') as (d & D1 & D2 & D3). exists 0, d. rewrite (still k b e T) by (auto; lia).
      destruct (Rlt_dec 0 0); [lra|]. destruct (Rlt_dec 0 d); [|lra]. repeat split; auto; lra. }
  destruct D as (d & d' & E & E' & HD & HP). unfold zrPair. rewrite E, E'. cbv zeta. set (p := ratioOf _ _ _ _ _) in *. rewrite !zr_seen by lia.
  set (x0 := Zr (k =? 0)%nat _ _ _ _ _). set (x1 := Zr (k' =? 0)%nat _ _ _ _ _).
  assert (Q : 0 < zrRate x0 x1 p d d' tr).
  { destruct (capture_pos tr k b e Hk ltac:(lia)). destruct (capture_pos tr k' b' e' Hk' ltac:(lia)). pose proof (radius_pos tr k b e Hk Hb). pose proof (radius_pos tr k' b' e' Hk' Hb').
    unfold zrRate. destruct (9 <? zSize x0)%Z; [apply loopRate_pos; assumption|]. destruct (9 <? zSize x1)%Z; [apply loopRate_pos; assumption|].
    pose proof PI_RGT_0. unfold zrCore, x0, x1; cbn [zR]. apply Rmult_lt_0_compat; [apply Rmult_lt_0_compat; lra|exact HD]. }
  destruct (_ || _)%bool; [destruct (Req_EM_T p 0); [lra|]|]; eauto.
Qed.
Print Assumptions c91_positive.
(** Which of the two comes first does not matter. *)
Lemma decide_moves k b : moves k b \/ ~ moves k b.
Proof. unfold moves. lia. Qed.
Theorem c91_symmetric tr k b e k' b' e' T : (k < 3)%nat -> (1 <= b < e)%Z -> (k' < 3)%nat -> (1 <= b' < e')%Z -> 0 < T ->
  zrPair tr (zr k b e) (zr k' b' e') T = zrPair tr (zr k' b' e') (zr k b e) T.
Proof.
  intros Hk Hb Hk' Hb' HT.
  assert (SZ : forall k b e, (k < 3)%nat -> (1 <= b)%Z -> zSize (zrSeen tr (zr k b e)) = b) by (intros; rewrite zr_seen by assumption; reflexivity).
  unfold zrPair. cbv zeta. rewrite !SZ by lia. rewrite (orb_comm (9 <? b')%Z).
  assert (SW : forall x0 x1 p d d', (zSize x0 <= 9 \/ zSize x1 <= 9)%Z -> zrRate x0 x1 p d d' tr = zrRate x1 x0 p d' d tr).
  { intros x0 x1 p d d' L. unfold zrRate. rewrite (Rplus_comm d' d). destruct (Z.ltb_spec 9 (zSize x0)), (Z.ltb_spec 9 (zSize x1)); try lia; try reflexivity. f_equal. ring. }
  assert (NL : forall x0 x1 p p' d d', (zSize x0 <= 9)%Z -> (zSize x1 <= 9)%Z -> zrRate x0 x1 p d d' tr = zrRate x0 x1 p' d d' tr).
  { intros x0 x1 p p' d d' L L'. unfold zrRate. destruct (Z.ltb_spec 9 (zSize x0)); [lia|]. destruct (Z.ltb_spec 9 (zSize x1)); [lia|]. reflexivity. }
  unfold ratioOf. destruct (decide_moves k b) as [M|M], (decide_moves k' b') as [M'|M'].
  - destruct (moving_coefficient k b e T Hk ltac:(lia) HT M) as (d & D1 & D2 & ->). destruct (moving_coefficient k' b' e' T Hk' ltac:(lia) HT M') as (d' & D1' & D2' & ->).
    assert (b <= 9 /\ b' <= 9)%Z as [L L'] by (unfold moves in *; lia). destruct (Z.ltb_spec 9 b); [lia|]. destruct (Z.ltb_spec 9 b'); [lia|]. cbn [orb]. f_equal.
    rewrite SW by (rewrite !SZ by lia; lia). apply NL; rewrite SZ; lia.
  - destruct (moving_coefficient k b e T Hk ltac:(lia) HT M) as (d & D1 & D2 & ->). rewrite (still k' b' e' T) by (auto; lia).
    assert (b <= 9)%Z by (unfold moves in *; lia). destruct (Rlt_dec 0 d); [|lra]. destruct (Rlt_dec 0 0); [lra|]. rewrite SW by (rewrite !SZ by lia; lia). reflexivity.
  - destruct (moving_coefficient k' b' e' T Hk' ltac:(lia) HT M') as (d & D1 & D2 & ->). rewrite (still k b e T) by (auto; lia).
    assert (b' <= 9)%Z by (unfold moves in *; lia). destruct (Rlt_dec 0 d); [|lra]. destruct (Rlt_dec 0 0); [lra|]. rewrite SW by (rewrite !SZ by lia; lia). reflexivity.
  - rewrite (still k b e T), (still k' b' e' T) by (auto; lia). destruct (Rlt_dec 0 0); [lra|]. destruct (Req_EM_T 0 0); [|lra].
    destruct ((9 <? b) || (9 <? b'))%Z%bool eqn:E; [reflexivity|]. apply orb_false_iff in E as [E E']. apply Z.ltb_ge in E, E'. f_equal. apply SW. rewrite !SZ by lia. lia.
Qed.
Print Assumptions c91_symmetric.
(** A loop and a cluster which moves: the anisotropy and the diffusion coefficient are those of the latter. *)
Theorem c91_loop tr k b e k' b' e' T da ea dc ec : (k < 3)%nat -> (9 < b < e)%Z -> (k' < 3)%nat -> (1 <= b' < e')%Z -> 0 < T -> moves k' b' ->
  0 < da -> 0 < dc -> anisotropic (zr k' b' e') da ea dc ec ->
  let Da := arrhenius da ea T in let Dc := arrhenius dc ec T in let c := capture tr (zr k b e) in let c' := capture tr (zr k' b' e') in
  zrPair tr (zr k b e) (zr k' b' e') T = Some (zrRate (Zr (k =? 0)%nat (k =? 1)%nat b (zrRadius tr (zr k b e)) (fst c) (snd c))
    (Zr (k' =? 0)%nat (k' =? 1)%nat b' (zrRadius tr (zr k' b' e')) (fst c') (snd c')) (Rpower (Dc / Da) (1 / 6)) 0 (root3 (Da * Da * Dc)) tr).
Proof.
  intros Hk Hb Hk' Hb' HT M P1 P2 A. cbv zeta.
  assert (D : zrDiffusion (zr k' b' e') = 1) by (destruct (moving k' b' e' Hk' ltac:(lia) M) as (? & ? & ? & ? & _ & _ & _ & D); exact D).
  destruct (coefficient_of _ _ _ _ _ T HT P1 P2 A D) as (E & E' & Q & _). unfold zrPair. rewrite E. rewrite (still k b e T) by (unfold moves; lia). cbv zeta.
  unfold ratioOf. destruct (Rlt_dec 0 0); [lra|]. destruct (Rlt_dec 0 (root3 _)); [|lra]. rewrite E'. rewrite !zr_seen by lia. cbn [zSize].
  destruct (Z.ltb_spec 9 b); [|lia]. cbn [orb]. destruct (Req_EM_T (Rpower _ _) 0) as [F|_]; [|reflexivity]. exfalso.
  pose proof (exp_pos (1 / 6 * ln (arrhenius dc ec T / arrhenius da ea T))). unfold Rpower in F. lra.
Qed.
Print Assumptions c91_loop.
Example c91_rates_ok : moves 2 3 /\ ~ moves 2 9 /\ (exists x, zrPair 325 (zr 1 400 420) (zr 2 3 4) 600 = Some x /\ 0 < x) /\ zrPair 325 (zr 1 400 420) (zr 2 9 10) 600 = None.
Proof.
  split; [right; lia|]. split; [unfold moves; lia|]. split; [apply c91_positive; try lia; [lra|right; right; lia]|].
  unfold zrPair. rewrite !still by (unfold moves; lia). unfold ratioOf. destruct (Rlt_dec 0 0); [lra|]. destruct (Req_EM_T 0 0); [|lra]. rewrite !zr_seen by lia. reflexivity.
Qed.

(** ** The alloys *)
Lemma alloyOn_sole k j n : (k < 6)%nat -> (1 <= n)%Z -> alloyOn j (alloySole k n) = (j =? k)%nat.
Proof.
  intros Hk Hn. assert (C : (k = 0 \/ k = 1 \/ k = 2 \/ k = 3 \/ k = 4 \/ k = 5)%nat) by lia.
  assert (N : forall b : bool, (negb (n =? 0)%Z && b)%bool = b) by (intros b; destruct (Z.eqb_spec n 0); [lia|reflexivity]).
  destruct C as [->|[->|[->|[->|[->| ->]]]]]; destruct j as [|[|[|[|[|[|j]]]]]]; unfold alloyOn; cbn; rewrite ?N; try reflexivity; destruct (Z.eqb_spec n 0); try lia; cbn; try reflexivity; destruct j; reflexivity.
Qed.
(** Which compounds exist in a network without groups. *)
Lemma select_sole maxV maxI maxSize maxVoid n k : (0 <= maxV)%Z -> (0 <= maxI)%Z -> (0 <= maxSize)%Z -> (0 <= maxVoid)%Z -> (1 <= n)%Z -> (k < 6)%nat ->
  alloySelect maxV maxI maxSize maxVoid (alloySole k n) =
    match k with 0%nat => (n <=? maxV)%Z | 1%nat => (maxV <? n)%Z && (n <=? maxVoid)%Z | 2%nat => (maxV <? n)%Z && (n <=? maxSize)%Z | 3%nat => (n <=? maxI)%Z | _ => (maxI <? n)%Z && (n <=? maxSize)%Z end%bool.
Proof.
  intros H1 H2 H3 H4 Hn Hk.
  assert (C : (k = 0 \/ k = 1 \/ k = 2 \/ k = 3 \/ k = 4 \/ k = 5)%nat) by lia.
  assert (N : (0 <? n)%Z = true) by (apply Z.ltb_lt; lia). assert (Z0 : (n =? 0)%Z = false) by (apply Z.eqb_neq; lia). assert (N1 : (n + 1 - 1 = n)%Z) by lia. assert (N2 : (n + 1 =? n + 1)%Z = true) by apply Z.eqb_refl.
  assert (M1 : (maxV <? 0)%Z = false) by (apply Z.ltb_ge; lia). assert (M2 : (maxI <? 0)%Z = false) by (apply Z.ltb_ge; lia). assert (M3 : (maxSize <? 0)%Z = false) by (apply Z.ltb_ge; lia). assert (M4 : (maxVoid <? 0)%Z = false) by (apply Z.ltb_ge; lia).
  assert (L1 : (0 <=? maxV)%Z = true) by (apply Z.leb_le; lia). assert (L2 : (0 <=? maxI)%Z = true) by (apply Z.leb_le; lia).
  assert (G1 : (maxV <? n)%Z = negb (n <=? maxV)%Z) by (destruct (Z.ltb_spec maxV n), (Z.leb_spec n maxV); try lia; reflexivity).
  assert (G2 : (maxI <? n)%Z = negb (n <=? maxI)%Z) by (destruct (Z.ltb_spec maxI n), (Z.leb_spec n maxI); try lia; reflexivity).
  assert (G3 : (maxSize <? n)%Z = negb (n <=? maxSize)%Z) by (destruct (Z.ltb_spec maxSize n), (Z.leb_spec n maxSize); try lia; reflexivity).
  assert (G4 : (maxVoid <? n)%Z = negb (n <=? maxVoid)%Z) by (destruct (Z.ltb_spec maxVoid n), (Z.leb_spec n maxVoid); try lia; reflexivity).
  assert (G5 : (n <? maxI)%Z = true -> (n <=? maxI)%Z = true) by (rewrite Z.ltb_lt, Z.leb_le; lia).
  unfold alloySelect, simplex, nAxis.
  destruct C as [->|[->|[->|[->|[->| ->]]]]]; cbn [alloySole map seq Nat.eqb axis nth ib ie forallb filter length Z.ltb Z.eqb Z.compare Z.add Z.sub Z.opp Pos.add Z.pos_sub andb];
    rewrite ?N, ?N1, ?N2, ?Z0, ?M1, ?M2, ?M3, ?M4; cbn [length Nat.ltb Nat.leb Nat.eqb negb andb orb]; rewrite ?G1, ?G2, ?G3, ?G4;
    cbn [Z.leb Z.compare]; rewrite ?L1, ?L2;
    destruct (n <=? maxV)%Z, (n <=? maxI)%Z, (n <=? maxSize)%Z, (n <=? maxVoid)%Z; try reflexivity; destruct (n <? maxI)%Z; try reflexivity; try (discriminate (G5 eq_refl)).
Qed.
Theorem c91_compounds maxV maxI maxSize maxVoid n : (0 <= maxV)%Z -> (0 <= maxI)%Z -> (0 <= maxSize)%Z -> (0 <= maxVoid)%Z -> (1 <= n)%Z ->
  compounds maxV maxI maxSize maxVoid true n =
    ((if n <=? maxV then [alloySole 0 n] else []) ++ (if (maxV <? n) && (n <=? maxVoid) then [alloySole 1 n] else []) ++ (if (maxV <? n) && (n <=? maxSize) then [alloySole 2 n] else []))%Z%bool%list /\
  compounds maxV maxI maxSize maxVoid false n =
    ((if n <=? maxI then [alloySole 3 n] else []) ++ (if (maxI <? n) && (n <=? maxSize) then [alloySole 5 n] else []) ++ (if (maxI <? n) && (n <=? maxSize) then [alloySole 4 n] else []))%Z%bool%list.
Proof.
  intros H1 H2 H3 H4 Hn. unfold compounds. cbn [map filter]. rewrite !select_sole by (assumption || lia).
  destruct (n <=? maxV)%Z, (maxV <? n)%Z, (n <=? maxI)%Z, (maxI <? n)%Z, (n <=? maxSize)%Z, (n <=? maxVoid)%Z; split; reflexivity.
Qed.
Print Assumptions c91_compounds.
(** The rate at which two clusters on the axes V and V, or I and I, find each other. *)
Definition whole (a : R) (k : nat) (n m : Z) (T : R) : R :=
  4 * PI * (alloyRadius a (alloySole k n) + alloyRadius a (alloySole k m) + 0.36) *
    (coefficient (alloyDiffusion a (alloySole k n)) (alloyMigration (alloySole k n)) T + coefficient (alloyDiffusion a (alloySole k m)) (alloyMigration (alloySole k m)) T).
Lemma pair_of a k j n m s T : (k = 0 \/ k = 3)%nat -> (j < 6)%nat -> (1 <= n)%Z -> (1 <= m)%Z -> (1 <= s)%Z ->
  alloyPair a (alloySole k n) (alloySole k m) (alloySole j s) T = (if (j =? k)%nat then 1 else 0.5) * whole a k n m T.
Proof.
  intros Hk Hj Hn Hm Hs. unfold alloyPair, alloyShare, alloySphereLike. rewrite !alloyOn_sole by lia. rewrite ?(Nat.eqb_sym 3 j), ?(Nat.eqb_sym 0 j). unfold whole.
  destruct Hk as [-> | ->]; cbn [Nat.eqb orb andb negb]; unfold alloyRate, alloyCore; cbn [andb]; [destruct (j =? 0)%nat|destruct (j =? 3)%nat]; cbn [negb]; lra.
Qed.
(** The compounds of two single clusters of vacancies, or of interstitials, share the whole rate: it goes to the cluster on the same axis up to the largest mobile size, and half each to the two kinds above. *)
Theorem c91_share a maxV maxI maxSize maxVoid n m T : (0 <= maxV)%Z -> (0 <= maxI)%Z -> (0 <= maxSize)%Z -> (0 <= maxVoid)%Z -> (1 <= n)%Z -> (1 <= m)%Z ->
  let total k := Rsum (compounds maxV maxI maxSize maxVoid (k =? 0)%nat (n + m)) (fun c => alloyPair a (alloySole k n) (alloySole k m) c T) in
  ((n + m <= maxV \/ n + m <= maxVoid /\ n + m <= maxSize)%Z -> total 0%nat = whole a 0 n m T) /\
  ((n + m <= maxI \/ n + m <= maxSize)%Z -> total 3%nat = whole a 3 n m T).
Proof.
  intros H1 H2 H3 H4 Hn Hm. cbv zeta. destruct (c91_compounds maxV maxI maxSize maxVoid (n + m) H1 H2 H3 H4 ltac:(lia)) as [EV EI]. cbn [Nat.eqb]. split; intros L.
  - rewrite EV. destruct (Z.leb_spec (n + m) maxV), (Z.ltb_spec maxV (n + m)); try lia; cbn [andb app];
    [|destruct (Z.leb_spec (n + m) maxVoid); [|lia]; destruct (Z.leb_spec (n + m) maxSize); [|lia]]; cbn [app Rsum fold_right]; rewrite !pair_of by lia; cbn [Nat.eqb]; lra.
  - rewrite EI. destruct (Z.leb_spec (n + m) maxI), (Z.ltb_spec maxI (n + m)); try lia; cbn [andb app];
    [|destruct (Z.leb_spec (n + m) maxSize); [|lia]]; cbn [app Rsum fold_right]; rewrite !pair_of by lia; cbn [Nat.eqb]; lra.
Qed.
Print Assumptions c91_share.
(** When only one of the two kinds can hold the size, the other half is lost: the clusters meet half as often. *)
Theorem c91_share_refuted a maxV maxI maxSize maxVoid n m T : (0 <= maxV)%Z -> (0 <= maxI)%Z -> (0 <= maxSize)%Z -> (0 <= maxVoid)%Z -> (1 <= n)%Z -> (1 <= m)%Z ->
  (maxV < n + m)%Z -> (n + m <= maxVoid /\ maxSize < n + m \/ n + m <= maxSize /\ maxVoid < n + m)%Z ->
  Rsum (compounds maxV maxI maxSize maxVoid true (n + m)) (fun c => alloyPair a (alloySole 0 n) (alloySole 0 m) c T) = whole a 0 n m T / 2.
Proof.
  intros H1 H2 H3 H4 Hn Hm HV L. destruct (c91_compounds maxV maxI maxSize maxVoid (n + m) H1 H2 H3 H4 ltac:(lia)) as [EV _]. rewrite EV.
  destruct (Z.leb_spec (n + m) maxV); [lia|]. destruct (Z.ltb_spec maxV (n + m)); [|lia]. destruct (Z.leb_spec (n + m) maxVoid), (Z.leb_spec (n + m) maxSize); try lia;
  cbn [andb app Rsum fold_right]; rewrite !pair_of by lia; cbn [Nat.eqb]; lra.
Qed.
Print Assumptions c91_share_refuted.
Example c91_share_ok : length (compounds 5 4 100 100 true 6) = 2%nat /\ length (compounds 5 4 100 100 false 4) = 1%nat /\ length (compounds 5 4 0 100 true 6) = 1%nat.
Proof. repeat split. Qed.

(** Which kinds are spheres and which are loops: axes V, Void and I against Faulted, Perfect and Frank. *)
Definition round (k : nat) : Prop := (k = 0 \/ k = 1 \/ k = 3)%nat.
Definition ring (k : nat) : Prop := (k = 2 \/ k = 4 \/ k = 5)%nat.
Definition speed (a : R) (k : nat) (n : Z) (T : R) : R := coefficient (alloyDiffusion a (alloySole k n)) (alloyMigration (alloySole k n)) T.
Lemma sole_pos a k n : 0 < a -> (1 <= n)%Z -> round k \/ ring k -> 0 < alloyRadius a (alloySole k n).
Proof.
  intros Ha Hn Hk. destruct (c61_alloy_volume a k n Ha Hn) as (A & B & C). change (alloySole k n) with (alloyOf k n (n + 1)). unfold round, ring in Hk.
  destruct Hk as [[->|[->| ->]]|[->|[->| ->]]]; try (apply A; cbn; tauto); try (apply C; cbn; tauto); apply B; reflexivity.
Qed.
Theorem c91_spheres a k j c n m s T : round k -> round j -> (c < 6)%nat -> (1 <= n)%Z -> (1 <= m)%Z -> (1 <= s)%Z ->
  alloyPair a (alloySole k n) (alloySole j m) (alloySole c s) T =
    (if ((k =? j) && negb (k =? 1) && negb (c =? k))%nat%bool then 0.5 else 1) *
    (4 * PI * (alloyRadius a (alloySole k n) + alloyRadius a (alloySole j m) + 0.36) * (speed a k n T + speed a j m T)).
Proof.
  intros Hk Hj Hc Hn Hm Hs. unfold round in *. unfold alloyPair, alloyShare, alloySphereLike. rewrite !alloyOn_sole by lia. unfold speed.
  destruct Hk as [->|[->| ->]]; destruct Hj as [->|[->| ->]]; cbn [Nat.eqb orb andb negb]; unfold alloyRate, alloyCore; cbn [andb];
  destruct c as [|[|[|[|[|[|c]]]]]]; try lia; cbn [Nat.eqb negb andb orb]; lra.
Qed.
(** A loop and a sphere; two loops, of which the one not smaller is the loop. *)
Theorem c91_rings a k j c n m s T : 0 < a -> ring k -> (c < 6)%nat -> (1 <= n)%Z -> (1 <= m)%Z -> (1 <= s)%Z ->
  let rl := alloyRadius a (alloySole k n) in let rs := alloyRadius a (alloySole j m) in
  (round j \/ ring j /\ rs <= rl) ->
  let met := (speed a k n T + speed a j m T) * ((rs + 0.36) * (rs + 0.36) * (4 * PI * (rl + rs + 0.36)) + rl * rl * (4 * PI * PI * rl / ln (1 + 8 * rl / (rs + 0.36)))) *
    (if (j =? 3)%nat then 1.2 else 1) in
  alloyPair a (alloySole k n) (alloySole j m) (alloySole c s) T * ((rs + 0.36) * (rs + 0.36) + rl * rl) = met /\
  (round j \/ rs < rl -> alloyPair a (alloySole j m) (alloySole k n) (alloySole c s) T * ((rs + 0.36) * (rs + 0.36) + rl * rl) = met).
Proof.
  intros Ha Hk Hc Hn Hm Hs rl rs Hj met.
  assert (Pl : 0 < rl) by (apply sole_pos; auto). assert (Ps : 0 < rs) by (apply sole_pos; tauto).
  assert (B : forall x y, (x < 6)%nat -> (y < 6)%nat -> ring x \/ ring y -> forall p q, (1 <= p)%Z -> (1 <= q)%Z -> alloyShare (alloySole x p) (alloySole y q) (alloySole c s) = 1).
  { intros x y Hx Hy R p q Hp Hq. unfold alloyShare, ring in *. rewrite !alloyOn_sole by lia.
    destruct (Nat.eqb_spec 3 x), (Nat.eqb_spec 3 y), (Nat.eqb_spec 0 x), (Nat.eqb_spec 0 y); cbn [andb]; try reflexivity; lia. }
  assert (Lj : (j < 6)%nat) by (unfold round, ring in *; lia). assert (Lk : (k < 6)%nat) by (unfold ring in *; lia).
  assert (Kf : alloySphereLike (alloySole k n) = false /\ alloyOn 3 (alloySole k n) = false)
    by (unfold alloySphereLike; rewrite !alloyOn_sole by lia; unfold ring in Hk; destruct Hk as [->|[->| ->]]; split; reflexivity).
  assert (Jf : alloySphereLike (alloySole j m) = true \/ alloySphereLike (alloySole j m) = false /\ rs <= rl /\ ring j).
  { unfold alloySphereLike. rewrite !alloyOn_sole by lia. destruct Hj as [Hj|[Hj Le]]; [left; unfold round in Hj; destruct Hj as [->|[->| ->]]; reflexivity|].
    right. split; [unfold ring in Hj; destruct Hj as [->|[->| ->]]; reflexivity|]. split; [exact Le|exact Hj]. }
  assert (J3 : alloyOn 3 (alloySole j m) = (j =? 3)%nat) by (rewrite alloyOn_sole by lia; apply Nat.eqb_sym).
  destruct Kf as [K1 K2]. split; [|intros Strict]; unfold alloyPair; rewrite B by auto; rewrite K1, K2, J3; fold rl rs; change (coefficient (alloyDiffusion a (alloySole k n)) (alloyMigration (alloySole k n)) T) with (speed a k n T);
    change (coefficient (alloyDiffusion a (alloySole j m)) (alloyMigration (alloySole j m)) T) with (speed a j m T); rewrite Rmult_1_r.
  - destruct Jf as [E|(E & Le & _)]; rewrite E; rewrite (Properties_Energy.c45_alloy_law _ _ _ _ rl rs _ _ rl rs Pl Ps) by (constructor; auto); reflexivity.
  - assert (LP : Properties_Energy.loopPair (alloySphereLike (alloySole j m)) false rs rl rl rs).
    { destruct Jf as [E|(E & Le & R)]; rewrite E; [constructor; reflexivity|]. apply Properties_Energy.lp_both_second. destruct Strict as [F|F]; [unfold round, ring in *; lia|exact F]. }
    rewrite (Properties_Energy.c45_alloy_law _ _ _ _ rs rl _ _ rl rs Ps Pl LP). unfold met. replace (rs + rl + 0.36) with (rl + rs + 0.36) by lra. destruct (j =? 3)%nat; lra.
Qed.
Print Assumptions c91_spheres.
Print Assumptions c91_rings.
Example c91_kinds_ok : round 1 /\ ring 2 /\ ring 4 /\ 0 < alloyRadius 0.36 (alloySole 2 60) /\ 0 < alloyRadius 0.36 (alloySole 1 60).
Proof. unfold round, ring. repeat split; auto; apply sole_pos; unfold round, ring; try lra; try lia; auto. Qed.
