(** C30: the grid under surface moves; C42: the count of displaced atoms; C53: the
    concentrations on the changed grid. *)
From Verif Require Import GridModel GridProofs.
Open Scope R_scope.

(** ** C30 *)
Theorem c30_first_uniform n h : 0 < h -> increasing (gridUniform n h) /\ length (gridUniform n h) = (n + 2)%nat.
Proof.
  intros H. unfold gridUniform. split; [|rewrite map_length, seq_length; reflexivity].
  intros i Hi. rewrite map_length, seq_length in Hi.
  rewrite !(nth_indep _ 0 ((fun l => INR l * h) 0%nat)) by (rewrite map_length, seq_length; lia).
  rewrite !(map_nth (fun l => INR l * h)), !seq_nth by lia. cbn [Nat.add]. rewrite S_INR. nra.
Qed.
Theorem c30_first_nonuniform n : increasing (gridNonuniform n) /\ length (gridNonuniform n) = (n + 2)%nat.
Proof.
  split; [|apply push_length]. apply push_increasing. intros i _. unfold stepNonuniform.
  repeat match goal with |- 0 < (if ?b then _ else _) => destruct b end; lra.
Qed.
Theorem c30_first_geometric n r : 0 < r -> increasing (gridGeometric n r) /\ length (gridGeometric n r) = (n + 2)%nat.
Proof.
  intros H. split; [|apply push_length]. apply push_increasing. intros i _. unfold stepGeometric.
  destruct (Nat.ltb i 1); [lra|]. apply Rmult_lt_0_compat; [lra|]. apply pow_lt. exact H.
Qed.
Theorem c30_first_read tokens : increasing tokens -> (2 <= length tokens)%nat -> 0 <= tokens.[0] ->
  exists g, gridRead tokens = Some g /\ increasing g /\ (length g >= length tokens + 2)%nat.
Proof. apply read_increasing. Qed.
Example c30_read_ok : increasing [0; 1; 3; 7] /\ gridRead [0; 1; 3; 7] = Some [0; 0 + (1 - 0); 1 + (1 - 0); 3 + (1 - 0); 7 + (1 - 0); 2 * 7 - 3 + (1 - 0)].
Proof.
  split; [repeat (apply inc_cons; split; [lra|]); apply inc_single|]. unfold gridRead. cbn [rev app].
  destruct (Rlt_dec 0 0); [lra|reflexivity].
Qed.
(** The Chebyshev grid starts with the same point twice. *)
Theorem c30_first_cheby_refuted n h : ~ increasing (gridCheby n h).
Proof. intros H. specialize (H 0%nat). unfold gridCheby in H. cbn [app length nth] in H. specialize (H ltac:(lia)). lra. Qed.
(** One move outwards. *)
Theorem c30_grow k g : increasing g -> (4 <= length g)%nat -> (1 <= k < length g)%nat ->
  exists g', moveGrid (Z.of_nat k) g = Some g' /\ increasing g' /\ used g' = used g + (g.[k] - g.[0]) /\
    (forall i, (i < length g - 2)%nat -> g'.[i] = g.[i]) /\ (length g <= length g' <= length g + 1)%nat /\
    g'.[length g' - 1] - g'.[length g' - 2] = g'.[length g' - 2] - g'.[length g' - 3].
Proof.
  intros Hi Hn Hk. destruct (grow_spec k g Hi Hn Hk) as [g' [E [I' [L' [B' [F' S']]]]]].
  exists g'. unfold moveGrid. replace (Z.ltb 0 (Z.of_nat k)) with true by (symmetry; apply Z.ltb_lt; lia).
  rewrite Nat2Z.id. repeat split; auto; try lia. unfold used. fold (bottom g) (bottom g'). rewrite B', (F' 1%nat) by lia. lra.
Qed.
(** One move inwards, as long as material is left. *)
Theorem c30_shrink k g : increasing g -> (4 <= length g)%nat -> (1 <= k < length g)%nat -> g.[k] - g.[0] + 1.0e-4 <= used g ->
  exists g', moveGrid (- Z.of_nat k) g = Some g' /\ increasing g' /\ used g' = used g - (g.[k] - g.[0]) /\
    (forall i, (i < length g' - 2)%nat -> g'.[i] = g.[i]) /\ (4 <= length g' <= length g)%nat /\
    g'.[length g' - 1] - g'.[length g' - 2] = g'.[length g' - 2] - g'.[length g' - 3] /\
    g'.[length g' - 3] + 1.0e-4 <= g'.[length g' - 2].
Proof.
  intros Hi Hn Hk Hu. destruct (shrink_spec k g Hi Hn Hk Hu) as [g' [E [I' [L' [B' [F' [S' [G' _]]]]]]]].
  exists g'. unfold moveGrid. replace (Z.ltb 0 (- Z.of_nat k)) with false by (symmetry; apply Z.ltb_ge; lia).
  rewrite Z.opp_involutive, Nat2Z.id. repeat split; auto; try lia. unfold used. fold (bottom g) (bottom g'). rewrite B', (F' 1%nat) by lia. lra.
Qed.
(** Any history of moves by fewer than [n] points during which the last used point stays
    behind the first [n] points. *)
Theorem c30_history n ms g : increasing g -> (2 <= n)%nat -> (n + 2 <= length g)%nat ->
  Forall (fun m => (1 <= Z.abs_nat m < n)%nat) ms ->
  (forall p q, ms = p ++ q -> p <> [] -> g.[n - 1] + 1.0e-4 <= bottom g + Rsum p (dist g)) ->
  exists g', run ms g = Some g' /\ increasing g' /\ used g' = used g + Rsum ms (dist g) /\
    (forall i, (i < n)%nat -> g'.[i] = g.[i]).
Proof.
  intros Hi Hn Hl Hf Hp. destruct (history_spec n ms g Hi Hn Hl Hf Hp) as [g' [E [I' [L' [B' F']]]]].
  exists g'. repeat split; auto. unfold used. fold (bottom g) (bottom g'). rewrite B', (F' 1%nat) by lia. lra.
Qed.
Definition gEx : list R := [0; 1; 2; 4; 7; 12; 20; 28].
Lemma gEx_inc : increasing gEx.
Proof. repeat (apply inc_cons; split; [lra|]). apply inc_single. Qed.
Example c30_history_ok : exists g', run [2; -1; -2; 1]%Z gEx = Some g' /\ used g' = used gEx.
Proof.
  destruct (c30_history 3 [2; -1; -2; 1]%Z gEx gEx_inc) as [g' [E [_ [U _]]]]; try (cbn; lia).
  - repeat constructor; cbn; lia.
  - intros p q E H.
    assert (Hc : p = [2]%Z \/ p = [2; -1]%Z \/ p = [2; -1; -2]%Z \/ p = [2; -1; -2; 1]%Z).
    { destruct p as [|p1 [|p2 [|p3 [|p4 [|p5 p]]]]]; try congruence; cbn [app] in E; injection E; intros; subst; auto.
      discriminate. }
    unfold bottom, dist, gEx. destruct Hc as [-> | [-> | [-> | ->]]]; cbn [Rsum Z.sgn Z.abs_nat Pos.to_nat Pos.iter_op Nat.add nth length Nat.sub]; change (Pos.to_nat 1) with 1%nat; change (Pos.to_nat 2) with 2%nat; cbv iota; lra.
  - exists g'. split; [exact E|]. rewrite U. unfold dist, gEx. cbn [Rsum Z.sgn Z.abs_nat Pos.to_nat Pos.iter_op Nat.add nth]; change (Pos.to_nat 1) with 1%nat; change (Pos.to_nat 2) with 2%nat; cbv iota; lra.
Qed.
Print Assumptions c30_first_uniform.
Print Assumptions c30_first_nonuniform.
Print Assumptions c30_first_geometric.
Print Assumptions c30_first_read.
Print Assumptions c30_first_cheby_refuted.
Print Assumptions c30_grow.
Print Assumptions c30_shrink.
Print Assumptions c30_history.

(** ** C42 *)
(** Atoms on the surface and atoms of the material. *)
Definition atoms (g : list R) (nSurf : R) : R := nSurf + tungstenDensity * used g.
Theorem c42_up g n n' off : increasing g -> (4 <= length g)%nat -> movesUp 1 g n -> up 1 g n = (n', off) ->
  0 < n' /\ exists g', moveGrid off g = Some g' /\ used g < used g' /\ atoms g' n' = atoms g n.
Proof.
  intros Hi Hn Hm. unfold up, movesUp in *. destruct (Rgt_dec n _) as [L|L]; [|contradiction].
  intros E. injection E as <- <-. cbn [Nat.sub] in *. split; [lra|].
  destruct (c30_grow 1 g Hi Hn ltac:(lia)) as [g' [E [_ [U _]]]]. exists g'. split; [exact E|].
  pose proof (inc_lt g 0 1 Hi ltac:(lia)). unfold atoms. rewrite U. split; lra.
Qed.
Example c42_up_ok : movesUp 1 gEx 70. Proof. unfold movesUp, tungstenDensity, gEx. cbn. lra. Qed.
(** The count after a retreat by [k] points. *)
Theorem c42_retreat g n n' off : increasing g -> (2 <= length g)%nat -> n < 0 -> retreat 1 g n = Some (n', off) ->
  exists k, (1 <= k)%nat /\ off = (- Z.of_nat k)%Z /\ n' = n + tungstenDensity * (g.[1 + k] - g.[1]) /\
    0 <= n' < tungstenDensity * (g.[1 + k] - g.[k]).
Proof.
  intros Hi Hn Hneg H. unfold retreat in H. destruct (back_spec g (length g - 1 - 1) 1 n 0 n' off Hi ltac:(lia) H) as [k [_ [K1 [K2 [K3 K4]]]]].
  destruct (K4 Hneg) as [K5 K6]. exists k. replace (1 + k - 1)%nat with k in K6 by lia. repeat split; auto.
Qed.
Theorem c42_retreat_ends g n : (2 <= length g)%nat -> 0 <= n + tungstenDensity * (g.[length g - 1] - g.[1]) -> exists r, retreat 1 g n = Some r.
Proof. intros Hn H. apply back_total. replace (1 + (length g - 1 - 1))%nat with (length g - 1)%nat by lia. exact H. Qed.
(** Conservation: exactly when the removed points are as far apart as those before them. *)
Theorem c42_back_iff g n n' k g' : increasing g -> (4 <= length g)%nat -> (1 <= k < length g)%nat -> g.[k] - g.[0] + 1.0e-4 <= used g ->
  n < 0 -> retreat 1 g n = Some (n', (- Z.of_nat k)%Z) -> moveGrid (- Z.of_nat k) g = Some g' ->
  (atoms g' n' = atoms g n <-> g.[1 + k] - g.[1] = g.[k] - g.[0]).
Proof.
  intros Hi Hn Hk Hu Hneg Hr Hm. destruct (c42_retreat g n n' _ Hi ltac:(lia) Hneg Hr) as [k' [K1 [K2 [K3 _]]]].
  assert (k' = k) by lia. subst k'. destruct (c30_shrink k g Hi Hn Hk Hu) as [g'' [E [_ [U _]]]].
  rewrite Hm in E. injection E as <-. unfold atoms. rewrite U, K3. unfold tungstenDensity. split; lra.
Qed.
(** One point, with the first two cells of equal size (all grids of [generateGrid] but the
    Chebyshev one and some read from a file). *)
Theorem c42_back_one_partial g n n' g' : increasing g -> (4 <= length g)%nat -> g.[2] - g.[1] = g.[1] - g.[0] -> g.[1] - g.[0] + 1.0e-4 <= used g ->
  n < 0 -> retreat 1 g n = Some (n', (-1)%Z) -> moveGrid (-1) g = Some g' -> 0 <= n' /\ atoms g' n' = atoms g n.
Proof.
  intros Hi Hn H2 Hu Hneg Hr Hm. split.
  - destruct (c42_retreat g n n' _ Hi ltac:(lia) Hneg Hr) as [k' [_ [_ [_ H]]]]. lra.
  - apply (c42_back_iff g n n' 1 g' Hi Hn ltac:(lia) Hu Hneg Hr Hm). cbn [Nat.add]. lra.
Qed.
Example c42_back_one_ok : movesBack 1 gEx (-60) /\ retreat 1 gEx (-60) = Some (-60 + tungstenDensity * (2 - 1), (-1)%Z) /\ gEx.[2] - gEx.[1] = gEx.[1] - gEx.[0].
Proof.
  unfold movesBack, retreat, gEx. cbn [length Nat.sub nth back Nat.add Z.sub]. unfold tungstenDensity. repeat split; try lra.
  destruct (Rlt_dec (-60) 0); [|lra]. destruct (Rlt_dec (-60 + 62.8 * (2 - 1)) 0); [lra|]. reflexivity.
Qed.
(** Two points at once on a grid which widens. *)
Theorem c42_back_two_refuted : exists n' g', movesBack 1 gEx (-100) /\ retreat 1 gEx (-100) = Some (n', (-2)%Z) /\ moveGrid (-2) gEx = Some g' /\
  atoms g' n' = atoms gEx (-100) + tungstenDensity.
Proof.
  destruct (c30_shrink 2 gEx gEx_inc) as [g' [E [_ [U _]]]]; try (cbn; lia).
  { unfold used, gEx. cbn. lra. }
  exists (-100 + tungstenDensity * (2 - 1) + tungstenDensity * (4 - 2)), g'. repeat split; [|  |exact E|].
  - unfold movesBack, gEx, tungstenDensity. cbn. lra.
  - unfold retreat, gEx. cbn [length Nat.sub nth back Nat.add Z.sub]. unfold tungstenDensity.
    destruct (Rlt_dec (-100) 0); [|lra]. destruct (Rlt_dec (-100 + 62.8 * (2 - 1)) 0); [|lra].
    destruct (Rlt_dec (-100 + 62.8 * (2 - 1) + 62.8 * (4 - 2)) 0); [lra|]. reflexivity.
  - unfold atoms. rewrite U. unfold used, gEx. cbn. lra.
Qed.
Print Assumptions c42_up.
Print Assumptions c42_retreat.
Print Assumptions c42_retreat_ends.
Print Assumptions c42_back_iff.
Print Assumptions c42_back_one_partial.
Print Assumptions c42_back_two_refuted.

(** ** C53 *)
(** Distance of the point [j] of a solution from the bulk end. *)
Definition depthFromBulk (g : list R) (j : nat) : R := bottom g - g.[j + 1].
(** [v] is the linear interpolation at the distance [d]. *)
Definition interpolates (g : list R) (c : nat -> R) (d v : R) : Prop :=
  exists j, (S j < length g - 2)%nat /\ depthFromBulk g (S j) <= d <= depthFromBulk g j /\
    v * (depthFromBulk g j - depthFromBulk g (S j)) = c j * (d - depthFromBulk g (S j)) + c (S j) * (depthFromBulk g j - d).
Lemma carry_look old new c xi v : increasing old -> (4 <= length old)%nat -> carry old new c xi = Some v ->
  exists i, (1 <= i < length old - 1)%nat /\ look old (depthFromBulk new xi) (seq 1 (length old - 2)) = Some i /\
    v * (old.[i + 1] - old.[i]) = c (i - 1)%nat * (depthFromBulk new xi - (bottom old - old.[i + 1])) + c i * ((bottom old - old.[i]) - depthFromBulk new xi).
Proof.
  intros Hi Hn. unfold carry, depthFromBulk. destruct (look old _ _) as [i|] eqn:E; [|discriminate].
  intros H. injection H as <-. destruct (look_first _ _ _ _ _ E) as [H1 _]. exists i. split; [lia|]. split; [reflexivity|].
  pose proof (inc_lt old i (i + 1) Hi ltac:(lia)). field. lra.
Qed.
Lemma carry_defined old new c xi : increasing old -> increasing new -> (4 <= length old)%nat -> (xi < length new - 2)%nat ->
  exists v i, carry old new c xi = Some v /\ (1 <= i <= length old - 3)%nat /\ look old (depthFromBulk new xi) (seq 1 (length old - 2)) = Some i.
Proof.
  intros Hi Hi' Hn Hx. destruct (look_ex old (depthFromBulk new xi) (length old - 2) 1 (length old - 3) ltac:(lia)) as [i [E Hii]].
  { replace (length old - 3 + 1)%nat with (length old - 2)%nat by lia. fold (bottom old).
    assert (0 <= depthFromBulk new xi); [|lra]. unfold depthFromBulk, bottom. pose proof (inc_le new (xi + 1) (length new - 2) Hi' ltac:(lia)). lra. }
  destruct (look_first _ _ _ _ _ E) as [H1 _].
  unfold carry, depthFromBulk in *. rewrite E. eexists. exists i. repeat split; try lia. 
Qed.
(** Affine profiles are carried exactly. *)
Theorem c53_affine old new c a b xi : increasing old -> increasing new -> (4 <= length old)%nat -> (xi < length new - 2)%nat ->
  (forall j, (j < length old - 2)%nat -> c j = a + b * depthFromBulk old j) -> carry old new c xi = Some (a + b * depthFromBulk new xi).
Proof.
  intros Hi Hi' Hn Hx Hc. destruct (carry_defined old new c xi Hi Hi' Hn Hx) as [v [i [E [Hii El]]]].
  destruct (carry_look old new c xi v Hi Hn E) as [i' [_ [El' H]]]. rewrite El in El'. injection El' as <-.
  rewrite E. f_equal. pose proof (inc_lt old i (i + 1) Hi ltac:(lia)) as Hs.
  rewrite (Hc (i - 1)%nat), (Hc i) in H by lia. unfold depthFromBulk at 1 3 in H. replace (i - 1 + 1)%nat with i in H by lia.
  apply (Rmult_eq_reg_r (old.[i + 1] - old.[i])); [|lra]. rewrite H. ring.
Qed.
(** Other profiles: linear interpolation, unless the new point lies above the old surface
    or less than 1e-4 nm below an old point. *)
Theorem c53_interpolates_partial old new c xi : increasing old -> increasing new -> (4 <= length old)%nat -> (xi < length new - 2)%nat ->
  depthFromBulk new xi <= depthFromBulk old 0 ->
  (forall j, (j < length old - 2)%nat -> depthFromBulk old j <= depthFromBulk new xi \/ depthFromBulk new xi <= depthFromBulk old j - 1.0e-4) ->
  exists v, carry old new c xi = Some v /\ interpolates old c (depthFromBulk new xi) v.
Proof.
  intros Hi Hi' Hn Hx Hd Hs. destruct (carry_defined old new c xi Hi Hi' Hn Hx) as [v [i [E [Hii El]]]].
  exists v. split; [exact E|]. destruct (carry_look old new c xi v Hi Hn E) as [i' [_ [El' H]]]. rewrite El in El'. injection El' as <-.
  destruct (look_first _ _ _ _ _ El) as [_ [L1 L2]]. pose proof (inc_lt old i (i + 1) Hi ltac:(lia)) as Hlt.
  set (d := depthFromBulk new xi) in *. clearbody d. unfold interpolates, depthFromBulk in *.
  exists (i - 1)%nat. replace (S (i - 1)) with i by lia. replace (i - 1 + 1)%nat with i by lia.
  split; [lia|]. split.
  - split.
    + destruct (Hs i ltac:(lia)) as [X|X]; [exact X|]. lra.
    + destruct (Nat.eq_dec i 1) as [->|]; [exact Hd|]. specialize (L2 (i - 1)%nat ltac:(lia)). replace (i - 1 + 1)%nat with i in L2 by lia. lra.
  - replace (bottom old - old.[i] - (bottom old - old.[i + 1])) with (old.[i + 1] - old.[i]) by ring. exact H.
Qed.
Corollary c53_nonnegative_partial old new c xi : increasing old -> increasing new -> (4 <= length old)%nat -> (xi < length new - 2)%nat ->
  depthFromBulk new xi <= depthFromBulk old 0 ->
  (forall j, (j < length old - 2)%nat -> depthFromBulk old j <= depthFromBulk new xi \/ depthFromBulk new xi <= depthFromBulk old j - 1.0e-4) ->
  (forall j, 0 <= c j) -> exists v, carry old new c xi = Some v /\ 0 <= v.
Proof.
  intros Hi Hi' Hn Hx Hd Hs Hc. destruct (c53_interpolates_partial old new c xi Hi Hi' Hn Hx Hd Hs) as [v [E [j [Hj [Hb Hv]]]]].
  exists v. split; auto. pose proof (inc_lt old (j + 1) (S j + 1) Hi ltac:(lia)) as Hlt.
  assert (0 < depthFromBulk old j - depthFromBulk old (S j)) by (unfold depthFromBulk; lra).
  assert (0 <= v * (depthFromBulk old j - depthFromBulk old (S j))).
  { rewrite Hv. pose proof (Hc j). pose proof (Hc (S j)). apply Rplus_le_le_0_compat; apply Rmult_le_pos; auto; lra. }
  apply Rnot_lt_le. intros N. nra.
Qed.
(** A new point at the place of an old one takes its value. *)
Theorem c53_same_place old new c xi j : increasing old -> increasing new -> (4 <= length old)%nat -> (xi < length new - 2)%nat ->
  (forall i, (S i < length old)%nat -> old.[i] + 1.0e-4 <= old.[S i]) -> (j < length old - 2)%nat -> depthFromBulk new xi = depthFromBulk old j ->
  carry old new c xi = Some (c j).
Proof.
  intros Hi Hi' Hn Hx Hg Hj Hd.
  destruct (carry_defined old new c xi Hi Hi' Hn Hx) as [v [i [E [Hii El]]]].
  destruct (carry_look old new c xi v Hi Hn E) as [i' [_ [El' H]]]. rewrite El in El'. injection El' as <-.
  destruct (look_first _ _ _ _ _ El) as [_ [L1 L2]]. pose proof (inc_lt old i (i + 1) Hi ltac:(lia)) as Hlt.
  rewrite Hd in *. unfold depthFromBulk in *. rewrite E. f_equal.
  destruct j as [|j].
  - assert (i = 1%nat). { destruct (Nat.eq_dec i 1); auto. specialize (L2 1%nat ltac:(lia)). pose proof (inc_lt old 1 2 Hi ltac:(lia)). cbn [Nat.add] in *. lra. }
    subst i. cbn [Nat.add Nat.sub] in *. apply (Rmult_eq_reg_r (old.[2] - old.[1])); lra.
  - assert (i = S j).
    { destruct (lt_eq_lt_dec i (S j)) as [[X|X]|X]; auto.
      - pose proof (Hg (S j) ltac:(lia)) as G. pose proof (inc_le old (i + 1) (S j) Hi ltac:(lia)). replace (S j + 1)%nat with (S (S j)) in * by lia. lra.
      - specialize (L2 (S j) ltac:(lia)). lra. }
    subst i. apply (Rmult_eq_reg_r (old.[S j + 1] - old.[S j])); lra.
Qed.
(** Uniform grids: the profile is shifted. *)
Lemma uniform_rev n h : rev (gridUniform n h) = INR (n + 1) * h :: INR n * h :: rev (map (fun l => INR l * h) (seq 0 n)).
Proof.
  unfold gridUniform. replace (n + 2)%nat with (S (S n)) by lia. rewrite !seq_S, !map_app, !rev_app_distr. cbn [map rev app Nat.add].
  replace (n + 1)%nat with (S n) by lia. reflexivity.
Qed.
Lemma seq_rev n h : rev (map (fun l => INR l * h) (seq 0 (S n))) = INR n * h :: rev (map (fun l => INR l * h) (seq 0 n)).
Proof. rewrite seq_S, map_app, rev_app_distr. reflexivity. Qed.
Lemma uniform_at n h i : (i < n + 2)%nat -> (gridUniform n h).[i] = INR i * h.
Proof.
  intros Hi. unfold gridUniform. rewrite (nth_indep _ 0 ((fun l => INR l * h) 0%nat)) by (rewrite map_length, seq_length; lia).
  rewrite (map_nth (fun l => INR l * h)), seq_nth by lia. reflexivity.
Qed.
Lemma uniform_grow n h : (2 <= n)%nat -> grow 1 (gridUniform n h) = Some (gridUniform (n + 1) h).
Proof.
  intros Hn. unfold grow. rewrite (nth_error_nth' _ 0) by (unfold gridUniform; rewrite map_length, seq_length; lia).
  rewrite !uniform_at by lia. destruct n as [|[|n]]; try lia. rewrite uniform_rev, !seq_rev.
  destruct (Rlt_dec _ _) as [L|L].
  - exfalso. rewrite !S_INR in L. lra.
  - f_equal. rewrite <- (rev_involutive (gridUniform (S (S n) + 1) h)). f_equal. rewrite uniform_rev.
    replace (S (S n) + 1)%nat with (S (S (S n))) by lia. rewrite !seq_rev. rewrite plus_INR, !S_INR. cbn [INR].
    repeat (f_equal; try ring).
Qed.
Lemma uniform_shrink n h : (3 <= n)%nat -> 1.0e-4 <= h -> shrink 1 (gridUniform n h) = Some (gridUniform (n - 1) h).
Proof.
  intros Hn Hh. unfold shrink. rewrite (nth_error_nth' _ 0) by (unfold gridUniform; rewrite map_length, seq_length; lia).
  rewrite !uniform_at by lia. destruct n as [|[|[|n]]]; try lia. rewrite uniform_rev, !seq_rev. cbn [trim].
  destruct (Rlt_dec _ _) as [L|L]; [|exfalso; apply L; rewrite !S_INR; cbn [INR]; lra].
  destruct (Rlt_dec _ _) as [L'|L']; [exfalso; rewrite !S_INR in L'; cbn [INR] in L'; lra|].
  f_equal. rewrite <- (rev_involutive (gridUniform (S (S (S n)) - 1) h)). f_equal. rewrite uniform_rev.
  replace (S (S (S n)) - 1)%nat with (S (S n)) by lia. rewrite !seq_rev. rewrite plus_INR, !S_INR. cbn [INR].
  repeat (f_equal; try ring).
Qed.
Theorem c53_uniform_up n h c xi : (2 <= n)%nat -> 1.0e-4 <= h -> (1 <= xi <= n)%nat ->
  exists g', moveGrid 1 (gridUniform n h) = Some g' /\ carry (gridUniform n h) g' c xi = Some (c (xi - 1)%nat).
Proof.
  intros Hn Hh Hx. exists (gridUniform (n + 1) h). split; [apply uniform_grow; auto|].
  destruct (c30_first_uniform n h ltac:(lra)) as [I1 L1]. destruct (c30_first_uniform (n + 1) h ltac:(lra)) as [I2 L2].
  apply c53_same_place; auto; try lia.
  - intros i Hi. rewrite L1 in Hi. rewrite !uniform_at by lia. rewrite S_INR. lra.
  - unfold depthFromBulk, bottom. rewrite L1, L2. rewrite !uniform_at by lia.
    replace (n + 1 + 2 - 2)%nat with (n + 1)%nat by lia. replace (n + 2 - 2)%nat with n by lia.
    replace (xi - 1 + 1)%nat with xi by lia. rewrite !plus_INR. cbn [INR]. ring.
Qed.
Theorem c53_uniform_back n h c xi : (3 <= n)%nat -> 1.0e-4 <= h -> (1 <= xi < n - 1)%nat ->
  exists g', moveGrid (-1) (gridUniform n h) = Some g' /\ carry (gridUniform n h) g' c xi = Some (c (xi + 1)%nat).
Proof.
  intros Hn Hh Hx. exists (gridUniform (n - 1) h). split; [apply uniform_shrink; auto|].
  destruct (c30_first_uniform n h ltac:(lra)) as [I1 L1]. destruct (c30_first_uniform (n - 1) h ltac:(lra)) as [I2 L2].
  apply c53_same_place; auto; try lia.
  - intros i Hi. rewrite L1 in Hi. rewrite !uniform_at by lia. rewrite S_INR. lra.
  - unfold depthFromBulk, bottom. rewrite L1, L2. rewrite !uniform_at by lia.
    replace (n - 1 + 2 - 2)%nat with (n - 1)%nat by lia. replace (n + 2 - 2)%nat with n by lia.
    rewrite !plus_INR, minus_INR by lia. cbn [INR]. ring.
Qed.
Example c53_uniform_ok : (2 <= 5)%nat /\ 1.0e-4 <= 0.5 /\ (1 <= 4 <= 5)%nat. Proof. repeat split; try lia; lra. Qed.
(** A grid read from a file whose first point is nearer to the surface than to the second:
    the new first point is extrapolated to a negative concentration. *)
Definition gFar : list R := [0; 2; 2.5; 4.5; 6.5; 8.5; 10.5].
Definition oneAt (k j : nat) : R := if Nat.eqb j k then 1 else 0.
Theorem c53_extrapolation_refuted : gridRead [0.5; 2.5; 4.5; 6.5] = Some gFar /\ exists g', moveGrid 1 gFar = Some g' /\ carry gFar g' (oneAt 1) 1 = Some (-3).
Proof.
  split.
  - unfold gridRead. cbn [rev app]. destruct (Rlt_dec 0 0.5); [|lra]. unfold gFar. cbn [app map]. f_equal. repeat (f_equal; try lra).
  - exists [0; 2; 2.5; 4.5; 6.5; 8.5; 10.5; 12.5]. split.
    + change (moveGrid 1 gFar) with (grow 1 gFar). unfold grow, gFar. cbn [nth_error rev app nth].
      destruct (Rlt_dec _ _) as [L|L]; [lra|]. cbn [rev app]. f_equal. repeat (f_equal; try lra).
    + unfold carry, bottom, gFar. cbn [length Nat.sub seq look nth Nat.add bottom].
      unfold bottom. cbn [length Nat.sub nth]. destruct (Rlt_dec _ _) as [L|L]; [|lra]. f_equal.
      cbn [Nat.sub nth Nat.add]. unfold oneAt. cbn [Nat.eqb]. lra.
Qed.
(** A new point less than 1e-4 nm below an old one is extrapolated too. *)
Definition gNear : list R := [0; 1; 2; 3; 4.00005; 5; 6; 7].
Theorem c53_near_refuted : exists g' v, moveGrid 1 gNear = Some g' /\ carry gNear g' (oneAt 1) 3 = Some v /\ v < 0.
Proof.
  exists [0; 1; 2; 3; 4.00005; 5; 6; 7; 8]. eexists. repeat split.
  - change (moveGrid 1 gNear) with (grow 1 gNear). unfold grow, gNear. cbn [nth_error rev app nth].
    destruct (Rlt_dec _ _) as [L|L]; [lra|]. cbn [rev app]. f_equal. repeat (f_equal; try lra).
  - unfold carry, gNear. cbn [length Nat.sub seq look nth Nat.add].
    unfold bottom. cbn [length Nat.sub nth].
    destruct (Rlt_dec _ _) as [L|L]; [lra|]. destruct (Rlt_dec _ _) as [L'|L']; [|lra]. reflexivity.
  - cbn [Nat.sub nth Nat.add]. unfold oneAt. cbn [Nat.eqb]. lra.
Qed.
(** After a retreat the first point of the material is set to the initial concentration:
    the unsigned offset is positive. *)
Theorem c53_retreat_refuted old new c c0 off : (-4294967296 < off < 0)%Z -> transferred old new c (Some c0) off 1 = Some c0.
Proof.
  intros H. unfold transferred, resets. replace (Z.ltb 0 (off mod 4294967296)) with true; [reflexivity|].
  symmetry. apply Z.ltb_lt. rewrite <- (Z_mod_plus_full off 1). rewrite Z.mod_small by lia. lia.
Qed.
(** ... instead of the value found one point deeper before a retreat by one point. *)
Example c53_retreat_ok : exists g', moveGrid (-1) (gridUniform 5 1) = Some g' /\
  carry (gridUniform 5 1) g' (fun j => INR j) 1 = Some 2 /\ transferred (gridUniform 5 1) g' (fun j => INR j) (Some 7) (-1) 1 = Some 7.
Proof.
  destruct (c53_uniform_back 5 1 (fun j => INR j) 1) as [g' [E1 E2]]; try lia; try lra.
  exists g'. split; [exact E1|]. split; [|apply c53_retreat_refuted; lia].
  rewrite E2. reflexivity.
Qed.
Print Assumptions c53_affine.
Print Assumptions c53_interpolates_partial.
Print Assumptions c53_nonnegative_partial.
Print Assumptions c53_same_place.
Print Assumptions c53_uniform_up.
Print Assumptions c53_uniform_back.
Print Assumptions c53_extrapolation_refuted.
Print Assumptions c53_near_refuted.
Print Assumptions c53_retreat_refuted.
