(** Exact evaluation of the Legendre fit: integer polynomials in the number of helium atoms, and a positivity test on an
    interval. *)
From Coq Require Import Reals ZArith List Lra Lia Bool.
From Verif Require Import FormationModel.
Import ListNotations.
Open Scope R_scope.

(** ** Polynomials with integer coefficients, lowest degree first *)
Fixpoint padd (p q : list Z) : list Z :=
  match p, q with [], _ => q | _, [] => p | x :: p', y :: q' => (x + y)%Z :: padd p' q' end.
Definition pscale (k : Z) (p : list Z) : list Z := map (Z.mul k) p.
Fixpoint pmul (p q : list Z) : list Z := match p with [] => [] | [x] => pscale x q | x :: p' => padd (pscale x q) (0%Z :: pmul p' q) end.
Fixpoint ppow (p : list Z) (n : nat) : list Z := match n with O => [1%Z] | S k => pmul p (ppow p k) end.
Fixpoint ev (p : list Z) (x : R) : R := match p with [] => 0 | c :: p' => IZR c + x * ev p' x end.
Fixpoint evz (p : list Z) (x : Z) : Z := match p with [] => 0%Z | c :: p' => (c + x * evz p' x)%Z end.
Lemma ev_add p : forall q x, ev (padd p q) x = ev p x + ev q x.
Proof. induction p as [|c p IH]; intros [|d q] x; cbn; try ring. rewrite IH, plus_IZR. ring. Qed.
Lemma ev_scale k p x : ev (pscale k p) x = IZR k * ev p x.
Proof. unfold pscale. induction p as [|c p IH]; cbn [map ev]; [ring|]. rewrite IH, mult_IZR. ring. Qed.
Lemma ev_mul p q x : ev (pmul p q) x = ev p x * ev q x.
Proof.
  induction p as [|c p IH]; [cbn; ring|]. destruct p as [|d p]; [cbn [pmul ev]; rewrite ev_scale; ring|]. remember (d :: p) as r.
  replace (pmul (c :: r) q) with (padd (pscale c q) (0%Z :: pmul r q)) by (subst r; reflexivity). rewrite ev_add, ev_scale. cbn [ev]. rewrite IH. ring.
Qed.
Lemma ev_pow p n x : ev (ppow p n) x = ev p x ^ n.
Proof. induction n as [|n IH]; cbn [ppow ev pow]; [ring|]. rewrite ev_mul, IH. ring. Qed.
Lemma ev_evz p x : IZR (evz p x) = ev p (IZR x).
Proof. induction p as [|c p IH]; cbn [evz ev]; [reflexivity|]. rewrite plus_IZR, mult_IZR, IH. reflexivity. Qed.
(** p (x - 1) *)
Definition pshift (p : list Z) : list Z := fold_right (fun c r => padd [c] (pmul [-1; 1]%Z r)) [] p.
Lemma ev_shift p x : ev (pshift p) x = ev p (x - 1).
Proof. induction p as [|c p IH]; cbn [pshift fold_right]; [reflexivity|]. rewrite ev_add, ev_mul. unfold pshift in IH. rewrite IH. cbn [ev]. ring. Qed.
(** (1 + t)^n p ((a + b t) / (1 + t)), n the degree *)
Fixpoint bern (a b : Z) (p : list Z) : list Z :=
  match p with [] => [] | [c] => [c] | c :: p' => padd (pscale c (ppow [1; 1]%Z (length p'))) (pmul [a; b] (bern a b p')) end.
Lemma ev_bern a b p t : 0 < 1 + t -> (1 + t) * ev (bern a b p) t = (1 + t) ^ length p * ev p ((IZR a + IZR b * t) / (1 + t)).
Proof.
  intros Ht. induction p as [|c p IH]; [cbn; ring|]. destruct p as [|d p]; [cbn; field; lra|]. remember (d :: p) as q.
  replace (bern a b (c :: q)) with (padd (pscale c (ppow [1; 1]%Z (length q))) (pmul [a; b] (bern a b q))) by (subst q; reflexivity).
  clear Heqq p d. rename q into p. cbn [length ev]. rewrite ev_add, ev_scale, ev_pow, ev_mul.
  replace (ev [1; 1]%Z t) with (1 + t) by (cbn; ring). replace (ev [a; b] t) with (IZR a + IZR b * t) by (cbn; ring).
  rewrite Rmult_plus_distr_l. replace ((1 + t) * ((IZR a + IZR b * t) * ev (bern a b p) t)) with ((IZR a + IZR b * t) * ((1 + t) * ev (bern a b p) t)) by ring.
  rewrite IH. cbn [pow]. field. lra.
Qed.
Definition positiveOn (a b : Z) (p : list Z) : bool := match p with [] => false | _ => forallb (Z.ltb 0) (bern a b p) && (0 <? evz p b)%Z && (a <? b)%Z && negb (match bern a b p with [] => true | _ => false end) end.
Lemma ev_pos p t : 0 <= t -> p <> [] -> forallb (Z.ltb 0) p = true -> 0 < ev p t.
Proof.
  intros Ht. induction p as [|c p IH]; [contradiction|]. intros _ H. cbn [forallb] in H. apply andb_true_iff in H as [H1 H2]. apply Z.ltb_lt, IZR_lt in H1. cbn [ev].
  destruct p as [|d p]; [cbn [ev]; lra|]. specialize (IH ltac:(discriminate) H2). nra.
Qed.
Lemma positiveOn_spec a b p x : positiveOn a b p = true -> IZR a <= x <= IZR b -> 0 < ev p x.
Proof.
  unfold positiveOn. destruct p as [|c p]; [discriminate|]. remember (c :: p) as f. rewrite !andb_true_iff. intros (((H1 & H2) & H3) & H4) Hx.
  apply Z.ltb_lt, IZR_lt in H2. rewrite ev_evz in H2. apply Z.ltb_lt, IZR_lt in H3.
  destruct (Req_dec x (IZR b)) as [->|N]; [exact H2|]. assert (T : 0 < IZR b - x) by lra. remember ((x - IZR a) / (IZR b - x)) as t.
  assert (T0 : 0 <= t) by (subst t; apply Rmult_le_pos; [lra|left; apply Rinv_0_lt_compat; lra]).
  assert (P : 0 < ev (bern a b f) t) by (apply ev_pos; [exact T0| |exact H1]; intros E; rewrite E in H4; discriminate).
  pose proof (ev_bern a b f t ltac:(lra)) as E. replace ((IZR a + IZR b * t) / (1 + t)) with x in E by (subst t; field; lra).
  assert (Q : 0 < (1 + t) ^ length f) by (apply pow_lt; lra). assert (S : 0 < (1 + t) * ev (bern a b f) t) by (apply Rmult_lt_0_compat; lra).
  rewrite E in S. apply Rmult_lt_reg_l with ((1 + t) ^ length f); [exact Q|]. lra.
Qed.

(** ** Legendre *)
Lemma legendre2 x : legendre x 2 = (3 * x ^ 2 - 1) / 2. Proof. cbn [legendre legendreSteps INR]. field. Qed.
Lemma legendre3 x : legendre x 3 = (5 * x ^ 3 - 3 * x) / 2. Proof. cbn [legendre legendreSteps INR]. field. Qed.
Lemma legendre4 x : legendre x 4 = (35 * x ^ 4 - 30 * x ^ 2 + 3) / 8. Proof. cbn [legendre legendreSteps INR]. field. Qed.
Lemma legendre5 x : legendre x 5 = (63 * x ^ 5 - 70 * x ^ 3 + 15 * x) / 8. Proof. cbn [legendre legendreSteps INR]. field. Qed.
Lemma compute3 x k0 k1 k2 k3 : computeLegendre x [k0; k1; k2; k3] = k0 + k1 * x + k2 * ((3 * x ^ 2 - 1) / 2) + k3 * ((5 * x ^ 3 - 3 * x) / 2).
Proof. unfold computeLegendre. cbn [fold_left snd]. rewrite legendre2, legendre3. cbn [legendre legendreSteps]. ring. Qed.
Lemma compute5 x k0 k1 k2 k3 k4 k5 : computeLegendre x [k0; k1; k2; k3; k4; k5] =
  k0 + k1 * x + k2 * ((3 * x ^ 2 - 1) / 2) + k3 * ((5 * x ^ 3 - 3 * x) / 2) + k4 * ((35 * x ^ 4 - 30 * x ^ 2 + 3) / 8) + k5 * ((63 * x ^ 5 - 70 * x ^ 3 + 15 * x) / 8).
Proof. unfold computeLegendre. cbn [fold_left snd]. rewrite legendre2, legendre3, legendre4, legendre5. cbn [legendre legendreSteps]. ring. Qed.

(** ** The fit over the integers: coefficients in units of 1/1000 *)
Definition zLow : list (list Z) :=
  [[253350; 435360; 336500; 198920; 95154; 21544]; [493290; 1061300; 1023900; 662920; 294240; 66962];
   [410400; 994890; 1044600; 689410; 286520; 60712]; [152990; 353160; 356100; 225750; 87077; 15640]]%Z.
Definition zHigh : list (list Z) :=
  [[-847900; -3346900; -4510300; -3094700; -971180; -83770]; [-1589300; -4894600; -6001800; -4057500; -1376400; -161910];
   [834910; 1981800; 1885700; 1027100; 296690; 29902]; [1547200; 3532300; 3383600; 1969200; 695170; 119230]]%Z.
Definition thousandth (z : Z) : R := IZR z / 1000.
Lemma zLow_eq : fitLow = map (map thousandth) zLow.
Proof. unfold fitLow, zLow, thousandth. cbn [map]. repeat f_equal; lra. Qed.
Lemma zHigh_eq : fitHigh = map (map thousandth) zHigh.
Proof. unfold fitHigh, zHigh, thousandth. cbn [map]. repeat f_equal; lra. Qed.
Definition high (v : Z) : bool := (27 <? v)%Z.
Definition yNum (v : Z) : Z := if high v then (2 * v - 453)%Z else (v - 14)%Z.
Definition yDen (v : Z) : Z := if high v then 451%Z else 13%Z.
(** 2 q^3 P_j (p / q) *)
Definition weights (p q : Z) : list Z := [2 * q ^ 3; 2 * p * q ^ 2; (3 * p ^ 2 - q ^ 2) * q; 5 * p ^ 3 - 3 * p * q ^ 2]%Z.
Definition combine4 (w : list Z) (i : nat) (rows : list (list Z)) : Z :=
  (nth 0 w 0 * nth i (nth 0 rows []) 0 + nth 1 w 0 * nth i (nth 1 rows []) 0 + nth 2 w 0 * nth i (nth 2 rows []) 0 + nth 3 w 0 * nth i (nth 3 rows []) 0)%Z.
(** 8 times the coefficients of the powers *)
Definition monomials (e : list Z) : list Z :=
  match e with
  | [e0; e1; e2; e3; e4; e5] => [8 * e0 - 4 * e2 + 3 * e4; 8 * e1 - 12 * e3 + 15 * e5; 12 * e2 - 30 * e4; 20 * e3 - 70 * e5; 35 * e4; 63 * e5]%Z
  | _ => []
  end.
(** q^5 (sum of m_k (p / q)^k), p a polynomial *)
Definition homogeneous (p : list Z) (q : Z) (m : list Z) : list Z :=
  match m with
  | [m0; m1; m2; m3; m4; m5] =>
      padd [m0 * q ^ 5] (pmul p (padd [m1 * q ^ 4] (pmul p (padd [m2 * q ^ 3] (pmul p (padd [m3 * q ^ 2] (pmul p (padd [m4 * q] (pmul p [m5])))))))))
  | _ => []
  end%Z.
Definition energyPoly (v : Z) : list Z :=
  let w := weights (yNum v) (yDen v) in let rows := if high v then zHigh else zLow in
  homogeneous [-9 * v; 2]%Z (9 * v) (monomials (map (fun i => combine4 w i rows) (seq 0 6))).
Definition energyDen (v : Z) : Z := (16000 * (9 * v) ^ 5 * yDen v ^ 3)%Z.
Lemma Zpow2 q : IZR (q ^ 2) = IZR q ^ 2. Proof. rewrite pow_IZR. reflexivity. Qed.
Lemma Zpow3 q : IZR (q ^ 3) = IZR q ^ 3. Proof. rewrite pow_IZR. reflexivity. Qed.
Lemma Zpow4 q : IZR (q ^ 4) = IZR q ^ 4. Proof. rewrite pow_IZR. reflexivity. Qed.
Lemma Zpow5 q : IZR (q ^ 5) = IZR q ^ 5. Proof. rewrite pow_IZR. reflexivity. Qed.
Ltac zr := repeat first [rewrite plus_IZR | rewrite minus_IZR | rewrite mult_IZR | rewrite opp_IZR | rewrite Zpow2 | rewrite Zpow3 | rewrite Zpow4 | rewrite Zpow5].
Lemma swap x y a0 a1 a2 a3 a4 a5 b0 b1 b2 b3 b4 b5 k0 k1 k2 k3 k4 k5 l0 l1 l2 l3 l4 l5 :
  let w2 := (3 * y ^ 2 - 1) / 2 in let w3 := (5 * y ^ 3 - 3 * y) / 2 in
  computeLegendre y [computeLegendre x [a0; a1; a2; a3; a4; a5]; computeLegendre x [b0; b1; b2; b3; b4; b5];
    computeLegendre x [k0; k1; k2; k3; k4; k5]; computeLegendre x [l0; l1; l2; l3; l4; l5]] =
  computeLegendre x [a0 + y * b0 + w2 * k0 + w3 * l0; a1 + y * b1 + w2 * k1 + w3 * l1; a2 + y * b2 + w2 * k2 + w3 * l2;
    a3 + y * b3 + w2 * k3 + w3 * l3; a4 + y * b4 + w2 * k4 + w3 * l4; a5 + y * b5 + w2 * k5 + w3 * l5].
Proof.
  intros w2 w3. rewrite compute3, !compute5. fold w2 w3. generalize w2 w3 ((3 * x ^ 2 - 1) / 2) ((5 * x ^ 3 - 3 * x) / 2) ((35 * x ^ 4 - 30 * x ^ 2 + 3) / 8) ((63 * x ^ 5 - 70 * x ^ 3 + 15 * x) / 8).
  intros. ring.
Qed.
Lemma homogeneous_spec p q e0 e1 e2 e3 e4 e5 x K f0 f1 f2 f3 f4 f5 : IZR q <> 0 ->
  IZR e0 = K * f0 -> IZR e1 = K * f1 -> IZR e2 = K * f2 -> IZR e3 = K * f3 -> IZR e4 = K * f4 -> IZR e5 = K * f5 ->
  ev (homogeneous p q (monomials [e0; e1; e2; e3; e4; e5])) x = 8 * IZR q ^ 5 * K * computeLegendre (ev p x / IZR q) [f0; f1; f2; f3; f4; f5].
Proof.
  intros Hq E0 E1 E2 E3 E4 E5. unfold homogeneous, monomials. repeat first [rewrite ev_add | rewrite ev_mul]. cbn [ev]. zr. rewrite E0, E1, E2, E3, E4, E5, compute5. field. exact Hq.
Qed.
Lemma weights_spec p q : IZR q <> 0 -> let y := IZR p / IZR q in
  map IZR (weights p q) = [2 * IZR q ^ 3; 2 * IZR q ^ 3 * y; 2 * IZR q ^ 3 * ((3 * y ^ 2 - 1) / 2); 2 * IZR q ^ 3 * ((5 * y ^ 3 - 3 * y) / 2)].
Proof. intros Hq y. unfold weights, y. cbn [map]. zr. repeat (apply f_equal2; [field; exact Hq|]). reflexivity. Qed.
Lemma fit_spec he v : (1 <= v)%Z -> ev (energyPoly v) (IZR he) = IZR (energyDen v) * fit he v.
Proof.
  intros Hv. assert (V : 0 < IZR v) by (apply IZR_lt; lia). unfold fit, energyPoly, energyDen.
  assert (Q9 : IZR (9 * v) <> 0) by (rewrite mult_IZR; lra).
  assert (X : ev [(-9 * v)%Z; 2%Z] (IZR he) / IZR (9 * v) = 2 * (IZR he / (9 * IZR v)) - 1) by (cbn [ev]; rewrite !mult_IZR; field; lra).
  unfold yNum, yDen, high. destruct (Z.ltb_spec 27 v) as [H|H]; destruct (Z.leb_spec v 27); try lia.
  - rewrite zHigh_eq. unfold zHigh. cbn [map]. rewrite <- X, swap.
    assert (Y : 2 * ((IZR v - 1) / 451) - 1 = IZR (2 * v - 453) / IZR 451) by (rewrite minus_IZR, mult_IZR; field). rewrite Y. clear Y. generalize (2 * v - 453)%Z. intros yp.
    pose proof (weights_spec yp 451 ltac:(lra)) as W. cbv zeta in W. destruct (weights yp 451) as [|w0 [|w1 [|w2 [|w3 [|]]]]]; try discriminate W.
    cbn [map] in W. injection W as W0 W1 W2 W3. cbn [seq map]. unfold combine4. cbn [nth]. unfold thousandth.
    match goal with |- _ = _ * computeLegendre _ [?f0; ?f1; ?f2; ?f3; ?f4; ?f5] =>
      rewrite (homogeneous_spec _ _ _ _ _ _ _ _ _ (2000 * IZR 451 ^ 3) f0 f1 f2 f3 f4 f5); [|exact Q9|zr; rewrite W0, W1, W2, W3; zr; field ..] end.
    match goal with |- _ * ?A = _ * ?A => generalize A end. intros A. zr. ring.
  - rewrite zLow_eq. unfold zLow. cbn [map]. rewrite <- X, swap.
    assert (Y : 2 * ((IZR v - 1) / 26) - 1 = IZR (v - 14) / IZR 13) by (rewrite minus_IZR; field). rewrite Y. clear Y. generalize (v - 14)%Z. intros yp.
    pose proof (weights_spec yp 13 ltac:(lra)) as W. cbv zeta in W. destruct (weights yp 13) as [|w0 [|w1 [|w2 [|w3 [|]]]]]; try discriminate W.
    cbn [map] in W. injection W as W0 W1 W2 W3. cbn [seq map]. unfold combine4. cbn [nth]. unfold thousandth.
    match goal with |- _ = _ * computeLegendre _ [?f0; ?f1; ?f2; ?f3; ?f4; ?f5] =>
      rewrite (homogeneous_spec _ _ _ _ _ _ _ _ _ (2000 * IZR 13 ^ 3) f0 f1 f2 f3 f4 f5); [|exact Q9|zr; rewrite W0, W1, W2, W3; zr; field ..] end.
    match goal with |- _ * ?A = _ * ?A => generalize A end. intros A. zr. ring.
Qed.
Lemma energyDen_pos v : (1 <= v)%Z -> (0 < energyDen v)%Z.
Proof. intros H. unfold energyDen. assert (0 < yDen v)%Z by (unfold yDen; destruct (high v); lia). apply Z.mul_pos_pos; [apply Z.mul_pos_pos; [lia|]|]; apply Z.pow_pos_nonneg; lia. Qed.

(** ** The emission energies *)
Definition heMost (v : Z) : Z := if (v <? 30)%Z then nth (Z.to_nat v) [0; 9; 14; 18; 20; 27; 30; 35; 40; 45; 50; 55; 60; 65; 70; 75; 80; 85; 90; 95; 98; 100; 101; 103; 105; 107; 109; 110; 112; 116]%Z 0%Z else (4 * v)%Z.
Definition hePoly (v : Z) : list Z :=
  let p := energyPoly v in padd (pshift p) (padd (pscale (-1) p) [615 * (160 * (9 * v) ^ 5 * yDen v ^ 3)]%Z).
Lemma hePoly_spec he v : (1 <= v)%Z -> ev (hePoly v) (IZR he) = IZR (energyDen v) * (fit (he - 1) v + 6.15 - fit he v).
Proof.
  intros H. unfold hePoly. cbv zeta. rewrite !ev_add, ev_shift, ev_scale. replace (IZR he - 1) with (IZR (he - 1)) by (rewrite minus_IZR; reflexivity).
  rewrite !fit_spec by exact H. cbn [ev]. unfold energyDen. zr. lra.
Qed.
Notation heCheck := (fun v => positiveOn 1 (heMost v) (hePoly v)).
Lemma he_emission : forallb heCheck (map Z.of_nat (seq 3 810)) = true.
Proof. vm_compute. reflexivity. Qed.
(** over the common denominator of the energies of v and v - 1, when the same fit is used *)
Definition vPoly (v : Z) : list Z :=
  padd (pscale (v ^ 5) (energyPoly (v - 1))) (padd (pscale (- (v - 1) ^ 5) (energyPoly v)) [36 * (1600 * 9 ^ 5 * (v * (v - 1)) ^ 5 * yDen v ^ 3)]%Z).
Lemma vPoly_spec he v : (2 <= v)%Z -> v <> 28%Z -> ev (vPoly v) (IZR he) = 16000 * 9 ^ 5 * (IZR v * IZR (v - 1)) ^ 5 * IZR (yDen v) ^ 3 * (fit he (v - 1) + 3.6 - fit he v).
Proof.
  intros H H28. assert (E : yDen (v - 1) = yDen v) by (unfold yDen, high; destruct (Z.ltb_spec 27 (v - 1)), (Z.ltb_spec 27 v); try lia; reflexivity).
  unfold vPoly. rewrite !ev_add, !ev_scale, !fit_spec by lia. cbn [ev]. unfold energyDen. rewrite E. zr.
  replace 3.6 with (36 / 10) by lra. generalize (fit he (v - 1)) (fit he v) (IZR (yDen v)). intros A B C. field.
Qed.
Notation vCheck := (fun v => positiveOn 0 (heMost (v - 1)) (vPoly v)).
Lemma v_emission_low : forallb vCheck (map Z.of_nat (seq 4 24)) = true.
Proof. vm_compute. reflexivity. Qed.
Lemma v_emission_high : forallb vCheck (map Z.of_nat (seq 29 784)) = true.
Proof. vm_compute. reflexivity. Qed.
Lemma forallb_Z f n m v a b : forallb f (map Z.of_nat (seq n m)) = true -> Z.of_nat n = a -> Z.of_nat (n + m) = b -> (a <= v < b)%Z -> f v = true.
Proof.
  intros H <- <- Hv. rewrite forallb_forall in H. apply H. replace v with (Z.of_nat (Z.to_nat v)) by lia. apply in_map, in_seq. lia.
Qed.
Lemma he_all v : (3 <= v < 813)%Z -> positiveOn 1 (heMost v) (hePoly v) = true.
Proof. apply (forallb_Z heCheck 3 810 v 3 813 he_emission); vm_compute; reflexivity. Qed.
Lemma v_all v : (4 <= v < 813)%Z -> v <> 28%Z -> positiveOn 0 (heMost (v - 1)) (vPoly v) = true.
Proof.
  intros H N. destruct (Z_lt_dec v 28) as [L|L].
  - assert (K : (4 <= v < 28)%Z) by lia. revert K. apply (forallb_Z vCheck 4 24 v 4 28 v_emission_low); vm_compute; reflexivity.
  - assert (K : (29 <= v < 813)%Z) by lia. revert K. apply (forallb_Z vCheck 29 784 v 29 813 v_emission_high); vm_compute; reflexivity.
Qed.
