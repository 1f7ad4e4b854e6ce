(** C93: fission returns gas from the bubbles to the lattice. *)
From Coq Require Import Lia Lra FinFun.
From Verif Require Import ResolutionModel GenBox Properties_Generator.
Open Scope R_scope.

(** ** How fast *)
(** The published fits: bounds on the share of the electronic stopping, and the five numbers. *)
Inductive published : R -> R -> R -> R -> R -> R -> Prop :=
  | P1 z : 0.87 < z -> published z 11.0851 1.5052 0.0362 0.0203 3.4123
  | P2 z : 0.82 < z <= 0.87 -> published z 10.6297 1.3479 0.0438 0.0241 4.2214
  | P3 z : 0.77 < z <= 0.82 -> published z 10.1521 1.1986 0.0546 0.0299 5.4612
  | P4 z : 0.71 < z <= 0.77 -> published z 9.1816 0.949 0.0703 0.0371 7.982
  | P5 z : 0.67 < z <= 0.71 -> published z 8.6745 0.8401 0.0792 0.0407 9.6585
  | P6 z : 0.62 < z <= 0.67 -> published z 7.6984 0.6721 0.1028 0.0526 14.272
  | P7 z : 0.57 < z <= 0.62 -> published z 6.3925 0.5025 0.1411 0.0727 23.1967
  | P8 z : 0.52 < z <= 0.57 -> published z 4.6175 0.3433 0.2284 0.1276 45.6624
  | P9 z : z <= 0.52 -> published z 2.3061 0.2786 1.1008 1.605 150.6689.
Lemma fit_published z : let f := fitOf z in published z (y0 f) (a1 f) (b1 f) (b2 f) (cc f).
Proof.
  unfold fitOf, above. repeat (destruct (Rlt_dec _ _) as [?|?]; [cbn; constructor; lra|]). cbn. constructor. lra.
Qed.
Definition law (y a b b' c F r : R) : R := (a * exp (- (b * r)) + (y - a) * exp (- (b' * r ^ 2)) / (1 + c * r ^ 2)) * 10000 * F.
Theorem c93_law z F r : 0 <= r -> exists y a b b' c, published z y a b b' c /\ reSolutionRate z F r = law y a b b' c F r.
Proof.
  intros Hr.
  exists (y0 (fitOf z)), (a1 (fitOf z)), (b1 (fitOf z)), (b2 (fitOf z)), (cc (fitOf z)). split; [apply fit_published|].
  assert (0 < cc (fitOf z)) by (pose proof (fit_published z) as P; cbn in P; inversion P; lra).
  unfold reSolutionRate, fractionRate, law. replace (- b1 (fitOf z) * r) with (- (b1 (fitOf z) * r)) by ring.
  replace (- b2 (fitOf z) * (r * r)) with (- (b2 (fitOf z) * r ^ 2)) by ring. assert (0 <= r * r) by nra. field. nra.
Qed.
Print Assumptions c93_law.

Lemma ordered z y a b b' c : published z y a b b' c -> 0 < a < y /\ 0 < b /\ 0 < b' /\ 0 < c /\ 2 < y < 11.1.
Proof. intros P. inversion P; subst; lra. Qed.
Lemma published_monotone z y a b b' c z2 y2 a2 p q s : z <= z2 -> published z y a b b' c -> published z2 y2 a2 p q s ->
  a <= a2 /\ y - a <= y2 - a2 /\ p <= b /\ q <= b' /\ s <= c.
Proof. intros Hz P Q. inversion P; subst; inversion Q; subst; lra. Qed.
Lemma term_le y y2 c s e e2 x : 0 <= y <= y2 -> 0 < s <= c -> 0 < e <= e2 -> 0 <= x -> y * e / (1 + c * x) <= y2 * e2 / (1 + s * x).
Proof.
  intros Hy Hc He Hx. assert (H1 : 0 < 1 + s * x) by nra. assert (H2 : 1 + s * x <= 1 + c * x) by nra.
  assert (H3 : y * e <= y2 * e2) by nra. assert (0 <= y * e) by nra.
  assert (H4 : / (1 + c * x) <= / (1 + s * x)) by (apply Rinv_le_contravar; assumption).
  assert (0 < / (1 + c * x)) by (apply Rinv_0_lt_compat; lra). unfold Rdiv. apply Rmult_le_compat; try lra.
Qed.
Lemma exp_le x y : x <= y -> exp x <= exp y. Proof. intros [H| ->]; [left; apply exp_increasing; exact H|lra]. Qed.
(** More energy lost to electrons: more gas returns, from bubbles of every radius. *)
Theorem c93_stopping z z2 F r : z <= z2 -> 0 <= F -> 0 <= r -> reSolutionRate z F r <= reSolutionRate z2 F r.
Proof.
  intros Hz HF Hr. destruct (@c93_law z F r Hr) as (y & a & b & b' & c & P & ->).
  destruct (@c93_law z2 F r Hr) as (y2 & a2 & p & q & s & Q & ->).
  destruct (published_monotone _ _ _ _ _ _ _ _ _ _ _ _ Hz P Q) as (A & B & C & D & E). destruct (ordered _ _ _ _ _ _ P) as (A' & B' & C' & D' & _). destruct (ordered _ _ _ _ _ _ Q) as (A2 & B2 & C2 & D2 & _).
  unfold law. apply Rmult_le_compat_r; [exact HF|]. apply Rmult_le_compat_r; [lra|]. apply Rplus_le_compat.
  - apply Rmult_le_compat; try lra; [left; apply exp_pos|apply exp_le; nra].
  - pose proof (exp_pos (- (b' * r ^ 2))). apply term_le; try lra; [|simpl; nra]. split; [lra|]. apply exp_le. assert (0 <= r ^ 2) by (simpl; nra). nra.
Qed.
Print Assumptions c93_stopping.
(** Larger bubbles lose gas more slowly. *)
Theorem c93_radius z F r r2 : 0 < F -> 0 <= r < r2 -> reSolutionRate z F r2 < reSolutionRate z F r.
Proof.
  intros HF Hr. unfold reSolutionRate. pose proof (fit_published z) as P. cbn in P. destruct (ordered _ _ _ _ _ _ P) as (A & B & C & D & _).
  unfold fractionRate. apply Rmult_lt_compat_r; [simpl; lra|]. apply Rmult_lt_compat_r; [apply Rinv_0_lt_compat; simpl; lra|].
  apply Rplus_lt_le_compat.
  - apply Rmult_lt_compat_l; [lra|]. apply exp_increasing. assert (b1 (fitOf z) * r < b1 (fitOf z) * r2) by (apply Rmult_lt_compat_l; lra). lra.
  - set (e := exp (- b2 (fitOf z) * (r * r))). set (e2 := exp (- b2 (fitOf z) * (r2 * r2))).
    assert (RR : r * r <= r2 * r2) by nra.
    assert (e2 <= e) by (apply exp_le; assert (b2 (fitOf z) * (r * r) <= b2 (fitOf z) * (r2 * r2)) by (apply Rmult_le_compat_l; lra); lra). assert (0 < e2) by apply exp_pos.
    assert (1 + cc (fitOf z) * (r * r) <= 1 + cc (fitOf z) * (r2 * r2)) by (assert (cc (fitOf z) * (r * r) <= cc (fitOf z) * (r2 * r2)) by (apply Rmult_le_compat_l; lra); lra). assert (0 < 1 + cc (fitOf z) * (r * r)) by nra.
    apply Rmult_le_compat; try lra; [apply Rmult_le_pos; [lra|left; apply Rinv_0_lt_compat; lra]|].
    apply Rmult_le_compat_l; [lra|]. apply Rinv_le_contravar; assumption.
Qed.
Print Assumptions c93_radius.
(** Proportional to the rate of fission, positive, and at most the fitted value for a point. *)
Theorem c93_fission z F r : (forall s, reSolutionRate z (s * F) r = s * reSolutionRate z F r) /\
  (0 < F -> 0 <= r -> 0 < reSolutionRate z F r <= 110851 * F) /\ reSolutionRate z 0 r = 0.
Proof.
  split; [intros s; unfold reSolutionRate; ring|]. split; [|unfold reSolutionRate; ring]. intros HF Hr.
  assert (U : forall q, 0 < q -> 0 < reSolutionRate z F q).
  { intros q Hq. unfold reSolutionRate, fractionRate. pose proof (fit_published z) as P. cbn in P. destruct (ordered _ _ _ _ _ _ P) as (A & B & C & D & _).
    apply Rmult_lt_0_compat; [|simpl; lra]. apply Rmult_lt_0_compat; [|apply Rinv_0_lt_compat; simpl; lra]. apply Rplus_lt_0_compat.
    - apply Rmult_lt_0_compat; [lra|apply exp_pos].
    - apply Rmult_lt_0_compat; [|apply exp_pos]. apply Rmult_lt_0_compat; [lra|apply Rinv_0_lt_compat; nra]. }
  split; [apply Rlt_trans with (reSolutionRate z F (r + 1)); [apply U; lra|apply c93_radius; lra]|].
  assert (Z0 : reSolutionRate z F 0 <= 110851 * F).
  { destruct (@c93_law z F 0) as (y & a & b & b' & c & P & ->); [lra|].
    assert (Y : y <= 11.0851) by (inversion P; subst; lra). unfold law. replace (- (b * 0)) with 0 by ring. replace (- (b' * 0 ^ 2)) with 0 by ring. rewrite exp_0.
    replace (1 + c * 0 ^ 2) with 1 by ring. unfold Rdiv. rewrite Rinv_1. nra. }
  destruct Hr as [Hr| <-]; [left; apply Rlt_le_trans with (reSolutionRate z F 0); [apply c93_radius; lra|exact Z0]|exact Z0].
Qed.
Print Assumptions c93_fission.
(** With the default share 0.73 and a bubble of no extent. *)
Example c93_rate_ok : reSolutionRate 0.73 2 0 = 183632 /\ reSolutionRate 0.73 2 3 < 183632 /\ reSolutionRate 0.73 2 3 <= reSolutionRate 0.9 2 3 /\ 0 < reSolutionRate 0.5 2 7 <= 221702.
Proof.
  assert (E : reSolutionRate 0.73 2 0 = 183632).
  { destruct (c93_law 0.73 2 0) as (y & a & b & b' & c & P & ->); [lra|]. inversion P; subst; try lra. unfold law. replace (- (0.0703 * 0)) with 0 by ring. replace (- (0.0371 * 0 ^ 2)) with 0 by ring.
    rewrite exp_0. replace (1 + 7.982 * 0 ^ 2) with 1 by ring. unfold Rdiv. rewrite Rinv_1. lra. }
  split; [exact E|]. split; [rewrite <- E; apply c93_radius; lra|]. split; [apply c93_stopping; lra|].
  destruct (c93_fission 0.5 2 7) as (_ & H & _). destruct H; lra.
Qed.

(** ** Which reactions *)
Open Scope Z_scope.
(** Clusters of fuel: bubbles and vacancies without interstitials, or interstitials alone; nothing is empty. *)
Definition fuel (b : box) : Prop := length (gas b) = 1%nat /\ fitsBox b /\ (interstitialFree b \/ pureInt b).
Definition hasXeV (b : box) (x v : Z) : Prop := exists l h, gas b = [(l, h)] /\ l <= x < h /\ fst (vac b) <= v < snd (vac b).
Lemma in_reSolutions on cs k i j : In (k, i, j) (reSolutions on cs) <-> on = true /\ (i <= j < length cs)%nat /\
  let b1 := nth i cs (Box [] (0, 0) (0, 0)) in let b2 := nth j cs (Box [] (0, 0) (0, 0)) in ejects b1 b2 = true /\ In k (generalProducts b1 b2 cs).
Proof.
  unfold reSolutions. rewrite in_flat_map. split.
  - intros (i' & Hi & H). apply in_flat_map in H as (j' & Hj & H). apply in_seq in Hi, Hj. destruct (Nat.ltb_spec j' i') as [L|L]; [destruct H|].
    unfold reSolve in H. destruct on; [|destruct H]. cbn [andb] in H.
    destruct (ejects _ _) eqn:E; [|destruct H]. apply in_map_iff in H as (k' & [= <- <- <-] & Hk). split; [reflexivity|]. split; [lia|]. split; assumption.
  - intros (-> & Hl & HE & Hk). exists i. split; [apply in_seq; lia|]. apply in_flat_map. exists j. split; [apply in_seq; lia|].
    destruct (Nat.ltb_spec j i); [lia|]. unfold reSolve. rewrite HE. cbn [andb]. apply in_map_iff. exists k. split; [reflexivity|exact Hk].
Qed.
Lemma one_axis b : length (gas b) = 1%nat -> exists l h, gas b = [(l, h)].
Proof. destruct (gas b) as [|[l h] [|]]; try discriminate. intros _. exists l, h. reflexivity. Qed.
Lemma balanced_xev c c' p : fuel c -> fuel c' -> fuel p -> interstitialFree c -> interstitialFree c' -> 0 < loXe c -> 0 < loV c ->
  balanced 0 c c' p <-> exists x v x' v', hasXeV c x v /\ hasXeV c' x' v' /\ hasXeV p (x + x') (v + v').
Proof.
  intros (L & F & _) (L' & F' & _) (LP & FP & KP) I I' HX HV.
  destruct (one_axis _ L) as (l & h & E). destruct (one_axis _ L') as (l' & h' & E'). destruct (one_axis _ LP) as (lp & hp & EP).
  unfold loXe in HX. rewrite E in HX. unfold loV in HV. destruct F' as (G' & V' & _). rewrite E' in G'. inversion G' as [|? ? G1 _]; subst. unfold fits in G1, V'. cbn in G1.
  split.
  - intros (g & g' & v & v' & i & i' & w & iw & (A1 & A2 & A3) & (B1 & B2 & B3) & (C1 & C2 & C3) & S).
    rewrite E in A1. rewrite E' in B1. rewrite EP in C1. inversion A1 as [|? x ? ? X1 X2]; subst. inversion X2; subst. inversion B1 as [|? x' ? ? Y1 Y2]; subst. inversion Y2; subst.
    cbn in C1. inversion C1 as [|? ? ? ? Z1 _]; subst. rewrite I in A3. rewrite I' in B3. unfold inside in *. cbn in *.
    destruct KP as [KP|(KG & KV & _)].
    + rewrite KP in C3. cbn in C3. exists x, v, x', v'. split; [exists l, h; auto|]. split; [exists l', h'; auto|]. exists lp, hp. repeat split; auto; lia.
    + exfalso. rewrite EP in KG. inversion KG as [|? ? K1 _]; subst. injection K1 as <- <-. lia.
  - intros (x & v & x' & v' & (? & ? & E1 & X & XV) & (? & ? & E2 & Y & YV) & (? & ? & E3 & Z & ZV)).
    rewrite E in E1. rewrite E' in E2. rewrite EP in E3. injection E1 as <- <-. injection E2 as <- <-. injection E3 as <- <-.
    assert (KI : interstitialFree p). { destruct KP as [KP|(KG & KV & _)]; [exact KP|]. exfalso. rewrite EP in KG. inversion KG as [|? ? K1 _]; subst. injection K1 as <- <-. lia. }
    exists [x], [x'], v, v', 0, 0, (v + v'), 0. unfold inBox, inside. rewrite E, E', EP, I, I', KI. cbn.
    repeat split; try (constructor; [cbn; lia|constructor]); try lia.
Qed.
(** Groups included: a bubble and a pair of xenon and vacancy leave the cluster which holds one of their sums, for each two clusters once. *)
Theorem c93_groups cs k i j : Forall fuel cs ->
  (In (k, i, j) (reSolutions true cs) <-> (i <= j)%nat /\ exists c c' p, nth_error cs i = Some c /\ nth_error cs j = Some c' /\ nth_error cs k = Some p /\
    (loXe c = 1 /\ loV c = 1 /\ 0 < loXe c' /\ 0 < loV c' \/ loXe c' = 1 /\ loV c' = 1 /\ 0 < loXe c /\ 0 < loV c) /\
    exists x v x' v', hasXeV c x v /\ hasXeV c' x' v' /\ hasXeV p (x + x') (v + v')) /\ reSolutions false cs = [].
Proof.
  intros HF. split.
  - rewrite in_reSolutions. set (d := Box [] (0, 0) (0, 0)). rewrite Forall_forall in HF.
    assert (FREE : forall b, fuel b -> 0 < loV b -> interstitialFree b).
    { intros b (_ & _ & [H|(_ & H & _)]) HV; [exact H|]. unfold loV in HV. rewrite H in HV. cbn in HV. lia. }
    assert (EJ : forall c c', ejects c c' = true <-> (loXe c = 1 /\ loV c = 1 /\ 0 < loXe c' /\ 0 < loV c' \/ loXe c' = 1 /\ loV c' = 1 /\ 0 < loXe c /\ 0 < loV c)).
    { intros c c'. unfold ejects. rewrite orb_true_iff, !andb_true_iff, !Z.eqb_eq, !Z.ltb_lt. tauto. }
    assert (PR : forall c c', fuel c -> fuel c' -> ejects c c' = true -> (In k (generalProducts c c' cs) <-> exists p, nth_error cs k = Some p /\ exists x v x' v', hasXeV c x v /\ hasXeV c' x' v' /\ hasXeV p (x + x') (v + v'))).
    { intros c c' FC FC' HE. apply EJ in HE. assert (0 < loXe c /\ 0 < loV c /\ 0 < loXe c' /\ 0 < loV c') as (X & V & X' & V') by lia.
      pose proof (FREE _ FC V) as I. pose proof (FREE _ FC' V') as I'. destruct FC as (L & F & K) eqn:FE, FC' as (L' & F' & K') eqn:FE'.
      destruct (@c19_products c c' cs k F F') as [_ H]; auto.
      - unfold sameAxes. congruence.
      - unfold holds. intros (_ & H & _). unfold inside in H. unfold loV in V. lia.
      - apply Forall_forall. intros p Hp. destruct (HF p Hp) as (LP & FP & KP). repeat split; auto; try apply FP. unfold sameAxes. congruence.
      - rewrite H. split; intros (p & Hp & B); exists p; (split; [exact Hp|]); pose proof (HF p (nth_error_In _ _ Hp)) as FP;
          [apply (proj1 (@balanced_xev c c' p (conj L (conj F K)) (conj L' (conj F' K')) FP I I' X V)); exact B|apply (proj2 (@balanced_xev c c' p (conj L (conj F K)) (conj L' (conj F' K')) FP I I' X V)); exact B]. }
    split.
    + intros (_ & Hl & HE & Hk). split; [lia|]. assert (Ni : nth_error cs i = Some (nth i cs d)) by (apply nth_error_nth'; lia). assert (Nj : nth_error cs j = Some (nth j cs d)) by (apply nth_error_nth'; lia).
      apply PR in Hk as (p & Hp & HX); [|apply HF; eapply nth_error_In; exact Ni|apply HF; eapply nth_error_In; exact Nj|exact HE].
      exists (nth i cs d), (nth j cs d), p. repeat split; auto. apply EJ. exact HE.
    + intros (Hl & c & c' & p & Ni & Nj & Np & HE & HX). assert (j < length cs)%nat by (apply nth_error_Some; congruence). split; [reflexivity|]. split; [lia|]. cbv zeta.
      rewrite (nth_error_nth _ _ d Ni), (nth_error_nth _ _ d Nj). split; [apply EJ; exact HE|]. apply PR; [apply HF; eapply nth_error_In; exact Ni|apply HF; eapply nth_error_In; exact Nj|apply EJ; exact HE|]. exists p. auto.
  - destruct (reSolutions false cs) as [|[[a b] c] l] eqn:E; [reflexivity|]. assert (I : In (a, b, c) (reSolutions false cs)) by (rewrite E; left; reflexivity). apply in_reSolutions in I. destruct I; discriminate.
Qed.
Print Assumptions c93_groups.

(** ** Networks without groups *)
(** Xenon, vacancies, interstitials of each cluster. *)
Definition single (c : Z * Z * Z) : box := let '(x, v, n) := c in Box [(x, x + 1)] (v, v + 1) (n, n + 1).
Definition proper (c : Z * Z * Z) : Prop := let '(x, v, n) := c in 0 <= x < 1000000000 /\ 0 <= v < 1000000000 /\ 0 <= n < 1000000000 /\ (n <> 0 -> x = 0 /\ v = 0).
Lemma single_fuel c : proper c -> fuel (single c).
Proof.
  destruct c as [[x v] n]. intros (X & V & N & K). unfold fuel, single, fitsBox, fits, interstitialFree, pureInt. cbn. split; [reflexivity|]. split; [repeat split; try lia; constructor; [cbn; lia|constructor]|].
  destruct (Z.eq_dec n 0) as [->|H]; [left; reflexivity|right]. destruct (K H) as [-> ->]. repeat split; [constructor; [reflexivity|constructor]|lia].
Qed.
Lemma hasXeV_single x v n x' v' : hasXeV (single (x, v, n)) x' v' <-> x' = x /\ v' = v.
Proof. unfold hasXeV. cbn. split; [intros (l & h & [= <- <-] & H1 & H2); lia|]. intros [-> ->]. exists x, (x + 1). repeat split; lia. Qed.
Theorem c93_who L k i j : Forall proper L ->
  In (k, i, j) (reSolutions true (map single L)) <-> (i <= j)%nat /\ exists x v, 0 < x /\ 0 < v /\ nth_error L k = Some (x + 1, v + 1, 0) /\
    (nth_error L i = Some (1, 1, 0) /\ nth_error L j = Some (x, v, 0) \/ nth_error L i = Some (x, v, 0) /\ nth_error L j = Some (1, 1, 0)).
Proof.
  intros HP. assert (HF : Forall fuel (map single L)) by (apply Forall_map; eapply Forall_impl; [|exact HP]; apply single_fuel).
  destruct (@c93_groups (map single L) k i j HF) as [H _]. rewrite H. clear H. rewrite Forall_forall in HP. split; intros [Hl H]; (split; [exact Hl|]).
  - destruct H as (c & c' & p & Ni & Nj & Nk & HE & x & v & x' & v' & A & B & C). rewrite nth_error_map in Ni, Nj, Nk.
    destruct (nth_error L i) as [[[xi vi] ni]|] eqn:Ei; [|discriminate]. destruct (nth_error L j) as [[[xj vj] nj]|] eqn:Ej; [|discriminate]. destruct (nth_error L k) as [[[xk vk] nk]|] eqn:Ek; [|discriminate].
    pose proof (HP _ (nth_error_In _ _ Ei)) as Pi. pose proof (HP _ (nth_error_In _ _ Ej)) as Pj. pose proof (HP _ (nth_error_In _ _ Ek)) as Pk. unfold proper in Pi, Pj, Pk.
    injection Ni as <-. injection Nj as <-. injection Nk as <-. apply hasXeV_single in A as [-> ->]. apply hasXeV_single in B as [-> ->]. apply hasXeV_single in C as [<- <-].
    unfold loXe, loV in HE. cbn in HE. assert (ni = 0) by lia. assert (nj = 0) by lia. assert (nk = 0) by lia. subst.
    destruct HE as [(-> & -> & X & V)|(-> & -> & X & V)].
    + exists xj, vj. repeat split; auto. rewrite (Z.add_comm xj), (Z.add_comm vj). reflexivity.
    + exists xi, vi. repeat split; auto.
  - destruct H as (x & v & X & V & Nk & HE). rewrite !nth_error_map, Nk. cbn [option_map].
    destruct HE as [[Ni Nj]|[Ni Nj]]; rewrite Ni, Nj; cbn [option_map]; eexists; eexists; eexists; split; [reflexivity| |reflexivity|]; (split; [reflexivity|]); (split; [reflexivity|]).
    + split; [left; unfold loXe, loV; cbn; lia|]. exists 1, 1, x, v. rewrite !hasXeV_single. lia.
    + split; [right; unfold loXe, loV; cbn; lia|]. exists x, v, 1, 1. rewrite !hasXeV_single. lia.
Qed.
Print Assumptions c93_who.
Lemma NoDup_flat A B (f : A -> list B) l : NoDup l -> (forall x, In x l -> NoDup (f x)) -> (forall x y b, In x l -> In y l -> In b (f x) -> In b (f y) -> x = y) -> NoDup (flat_map f l).
Proof.
  induction l as [|a l IH]; intros HN H1 H2; cbn; [constructor|]. inversion HN; subst.
  assert (NA : forall (p q : list B), NoDup p -> NoDup q -> (forall b, In b p -> ~ In b q) -> NoDup (p ++ q)).
  { induction p as [|b p IHp]; intros q P Q D; cbn; [exact Q|]. inversion P; subst. constructor; [rewrite in_app_iff; intros [?|?]; [contradiction|eapply D; [left; reflexivity|eassumption]]|]. apply IHp; auto. intros x Hx. apply D. right. exact Hx. }
  apply NA; [apply H1; left; reflexivity|apply IH; auto; [intros x Hx; apply H1; right; exact Hx|intros x y b Hx Hy; apply H2; right; assumption]|].
  intros b Hb Hf. apply in_flat_map in Hf as (y & Hy & Hyb). assert (a = y) by (eapply H2; [left; reflexivity|right; exact Hy|exact Hb|exact Hyb]). subst. contradiction.
Qed.
(** No set of clusters twice, in any network. *)
Theorem c93_once on cs : NoDup (reSolutions on cs).
Proof.
  unfold reSolutions. apply NoDup_flat; [apply seq_NoDup| |].
  - intros i Hi. apply NoDup_flat; [apply seq_NoDup| |].
    + intros j Hj. destruct (j <? i)%nat; [constructor|]. unfold reSolve. destruct (_ && _); [|constructor].
      apply Injective_map_NoDup; [intros a b [= E]; exact E|]. apply NoDup_filter, seq_NoDup.
    + intros j j' t Hj Hj' A B. destruct (j <? i)%nat; [destruct A|]. destruct (j' <? i)%nat; [destruct B|]. unfold reSolve in A, B. destruct (_ && _); [|destruct A]. destruct (_ && _); [|destruct B].
      apply in_map_iff in A as (a & <- & _). apply in_map_iff in B as (b & [= _ E] & _). congruence.
  - intros i i' t Hi Hi' A B. apply in_flat_map in A as (j & _ & A). apply in_flat_map in B as (j' & _ & B).
    destruct (j <? i)%nat; [destruct A|]. destruct (j' <? i')%nat; [destruct B|]. unfold reSolve in A, B. destruct (_ && _); [|destruct A]. destruct (_ && _); [|destruct B].
    apply in_map_iff in A as (a & <- & _). apply in_map_iff in B as (b & [= _ E _] & _). congruence.
Qed.
Print Assumptions c93_once.
(** A bubble of at least two xenon and two vacancies has one such reaction if the rest of it is a cluster, and gives back one xenon with one vacancy; every bubble has at most one. *)
Theorem c93_one L k : Forall proper L -> NoDup L ->
  (forall t t', In t (reSolutions true (map single L)) -> In t' (reSolutions true (map single L)) -> fst (fst t) = k -> fst (fst t') = k -> t = t') /\
  (forall x v, 0 < x -> 0 < v -> nth_error L k = Some (x + 1, v + 1, 0) -> In (1, 1, 0) L -> In (x, v, 0) L -> exists i j, In (k, i, j) (reSolutions true (map single L))).
Proof.
  intros HP HN. assert (U : forall a b c, nth_error L a = Some c -> nth_error L b = Some c -> a = b).
  { intros a b c Ha Hb. apply (proj1 (NoDup_nth_error L) HN); [apply nth_error_Some; congruence|congruence]. }
  split.
  - intros [[k1 i] j] [[k2 i'] j'] A B. cbn. intros -> ->. apply c93_who in A as (L1 & x & v & X & V & K & C); [|exact HP]. apply c93_who in B as (L2 & x' & v' & X' & V' & K' & C'); [|exact HP].
    rewrite K in K'. assert (x' = x) by (injection K'; lia). assert (v' = v) by (injection K'; lia). subst.
    destruct C as [[A1 A2]|[A1 A2]], C' as [[B1 B2]|[B1 B2]].
    + rewrite (U i i' _ A1 B1), (U j j' _ A2 B2). reflexivity.
    + assert (i = j') by (eapply U; eauto). assert (j = i') by (eapply U; eauto). replace i' with i by lia. replace j' with j by lia. reflexivity.
    + assert (i = j') by (eapply U; eauto). assert (j = i') by (eapply U; eauto). replace i' with i by lia. replace j' with j by lia. reflexivity.
    + rewrite (U i i' _ A1 B1), (U j j' _ A2 B2). reflexivity.
  - intros x v X V K P Q. apply In_nth_error in P as [p P]. apply In_nth_error in Q as [q Q].
    destruct (le_lt_dec p q) as [H|H]; [exists p, q|exists q, p]; apply c93_who; auto; (split; [lia|]); exists x, v; auto 10.
Qed.
Print Assumptions c93_one.
(** Bubbles with one vacancy keep their gas, however many xenon atoms they have, and so do those of two xenon and ten or more vacancies (the network has no single xenon with more than eight vacancies). *)
Theorem c93_kept_refuted L k i j x v : Forall proper L -> nth_error L k = Some (x, v, 0) ->
  v = 1 \/ (x = 2 /\ 10 <= v /\ forall w, In (1, w, 0) L -> w <= 8) -> ~ In (k, i, j) (reSolutions true (map single L)).
Proof.
  intros HP K H A. apply c93_who in A as (_ & x' & v' & X & V & K' & C); [|exact HP]. rewrite K in K'. injection K' as -> ->.
  destruct H as [H|(H & H1 & H2)]; [lia|]. assert (x' = 1) by lia. subst. assert (I : In (1, v', 0) L) by (destruct C as [[_ C]|[C _]]; eapply nth_error_In; exact C). specialize (H2 _ I). lia.
Qed.
Print Assumptions c93_kept_refuted.
(** Xe, V, XeV, Xe2V2, Xe3V2, Xe2V, Xe5V: Xe2V2 gives back one pair and Xe3V2, through Xe2V, too; Xe5V nothing. A group of bubbles Xe 4-6, V 3 beside Xe 3-5, V 2. *)
Definition net93 : list (Z * Z * Z) := [(1, 0, 0); (0, 1, 0); (1, 1, 0); (2, 2, 0); (3, 2, 0); (2, 1, 0); (5, 1, 0); (0, 0, 1)].
Example c93_who_ok : Forall proper net93 /\ NoDup net93 /\ reSolutions true (map single net93) = [(3, 2, 2); (4, 2, 5)]%nat /\
  reSolutions true [single (1, 1, 0); Box [(3, 5)] (2, 3) (0, 1); Box [(4, 6)] (3, 4) (0, 1)] = [(2, 0, 1)]%nat.
Proof.
  split; [unfold net93, proper; repeat (constructor; [lia|]); constructor|]. split; [unfold net93; repeat (constructor; [cbn; intuition discriminate|]); constructor|]. split; vm_compute; reflexivity.
Qed.
