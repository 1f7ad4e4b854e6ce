(** C31: the temperature gathered from the processes; C52: the network temperature found
    on another grid. *)
From Verif Require Import TempGridModel GridProofs Properties_Grid.
Open Scope R_scope.

(** ** C31 *)
(** The temperatures (both ghosts included) are spread over processes with consecutive grid
    points; each process holds its own and the two next to them. *)
Fixpoint ranksOf (start : nat) (sizes : list nat) (T : list R) : list rank :=
  match sizes with [] => [] | m :: r => Rank start m (firstn (m + 2) (skipn start T)) :: ranksOf (start + m) r T end.
Lemma nth_firstn_skipn (T : list R) a n i : (i < n)%nat -> (firstn n (skipn a T)).[i] = T.[a + i].
Proof.
  revert a i T. induction n as [|n IH]; intros a i T Hi; [lia|].
  revert T. induction a as [|a IHa]; intros T.
  - cbn [skipn Nat.add]. destruct T as [|t T]; [destruct i; reflexivity|]. cbn [firstn]. destruct i as [|i]; [reflexivity|]. cbn [nth].
    specialize (IH 0%nat i T ltac:(lia)). cbn [skipn Nat.add] in IH. exact IH.
  - destruct T as [|t T]; [cbn [skipn firstn]; destruct i; reflexivity|]. cbn [skipn Nat.add nth]. apply IHa.
Qed.
Lemma map_shift (T : list R) a n : map (fun i => T.[a + i]) (seq 0 n) = map (fun i => T.[i]) (seq a n).
Proof.
  revert a. induction n as [|n IH]; intros a; [reflexivity|]. cbn [seq map]. rewrite Nat.add_0_r. f_equal.
  rewrite <- seq_shift, map_map. rewrite <- IH. apply map_ext. intros i. f_equal. lia.
Qed.
Lemma skipn_map (T : list R) a : skipn a T = map (fun i => T.[i]) (seq a (length T - a)).
Proof.
  revert a. induction T as [|t T IH]; intros a; [destruct a; reflexivity|]. destruct a as [|a].
  - cbn [skipn length Nat.sub seq map]. f_equal. rewrite <- seq_shift, map_map. cbn [nth]. specialize (IH 0%nat). cbn [skipn] in IH.
    rewrite Nat.sub_0_r in IH. exact IH.
  - cbn [skipn length Nat.sub]. rewrite IH. rewrite <- seq_shift, map_map. reflexivity.
Qed.
Lemma sent_middle nX start m T : (1 <= start)%nat ->
  valuesToSend nX (Rank start m (firstn (m + 2) (skipn start T))) =
  map (fun i => T.[i]) (seq (start + 1) (m + if Nat.eqb (start + m) nX then 1 else 0)).
Proof.
  intros Hs. unfold valuesToSend, toSend. cbn [localXS localXM localTemp].
  destruct (Nat.eqb_spec start 0); [lia|]. cbn [orb andb]. rewrite <- map_shift. rewrite Nat.add_0_r.
  apply map_ext_in. intros i Hi. apply in_seq in Hi. rewrite nth_firstn_skipn; [f_equal; lia|]. destruct (Nat.eqb (start + m) nX); lia.
Qed.
Lemma gathered_rest nX T sizes : forall start, (1 <= start)%nat -> sizes <> [] -> Forall (fun m => (1 <= m)%nat) sizes ->
  (start + list_sum sizes)%nat = nX -> length T = (nX + 2)%nat -> gathered nX (ranksOf start sizes T) = skipn (start + 1) T.
Proof.
  induction sizes as [|m sizes IH]; intros start Hs Hne Hf Hn HT; [congruence|].
  inversion Hf as [|? ? Hm Hf']. subst x l. cbn [list_sum fold_right] in Hn. fold (list_sum sizes) in Hn.
  cbn [ranksOf]. unfold gathered. cbn [flat_map]. fold (gathered nX). rewrite sent_middle by auto.
  destruct sizes as [|m' sizes].
  - cbn [list_sum fold_right] in Hn. destruct (Nat.eqb_spec (start + m) nX); [|lia]. cbn [ranksOf flat_map]. rewrite app_nil_r.
    rewrite skipn_map. f_equal. f_equal. lia.
  - assert (Hlt : (start + m < nX)%nat). { inversion Hf'. subst. cbn [list_sum fold_right]. lia. }
    destruct (Nat.eqb_spec (start + m) nX); [lia|]. fold (gathered nX (ranksOf (start + m) (m' :: sizes) T)).
    rewrite IH; auto; try lia; [|discriminate]. rewrite !skipn_map, <- map_app. f_equal. rewrite Nat.add_0_r.
    replace (start + m + 1)%nat with (start + 1 + m)%nat by lia. rewrite <- seq_app. f_equal. lia.
Qed.
Theorem c31_gathered T sizes : sizes <> [] -> Forall (fun m => (1 <= m)%nat) sizes -> length T = (list_sum sizes + 2)%nat ->
  gathered (list_sum sizes) (ranksOf 0 sizes T) = T.
Proof.
  intros Hne Hf HT. destruct sizes as [|m sizes]; [congruence|]. inversion Hf as [|? ? Hm Hf']. subst x l.
  set (nX := list_sum (m :: sizes)) in *. cbn [ranksOf]. unfold gathered. cbn [flat_map]. fold (gathered nX (ranksOf (0 + m) sizes T)).
  assert (Efirst : valuesToSend nX (Rank 0 m (firstn (m + 2) (skipn 0 T))) = map (fun i => T.[i]) (seq 0 (m + 1 + if Nat.eqb m nX then 1 else 0))).
  { unfold valuesToSend, toSend. cbn [localXS localXM localTemp Nat.eqb orb andb Nat.add].
    apply map_ext_in. intros i Hi. apply in_seq in Hi. rewrite nth_firstn_skipn; [f_equal; lia|]. destruct (Nat.eqb m nX); lia. }
  rewrite Efirst. assert (HT0 := skipn_map T 0). cbn [skipn] in HT0. rewrite Nat.sub_0_r in HT0.
  destruct sizes as [|m' sizes].
  - assert (nX = m) by (unfold nX; cbn [list_sum fold_right]; lia). cbn [ranksOf gathered flat_map]. rewrite app_nil_r.
    destruct (Nat.eqb_spec m nX); [|lia]. etransitivity; [|symmetry; exact HT0]. f_equal. f_equal. lia.
  - assert (Hlt : (m < nX)%nat). { inversion Hf'. subst. unfold nX. cbn [list_sum fold_right]. lia. }
    destruct (Nat.eqb_spec m nX); [lia|]. rewrite gathered_rest; auto; try lia; [|discriminate].
    rewrite skipn_map, <- map_app. etransitivity; [|symmetry; exact HT0]. f_equal. rewrite Nat.add_0_r. cbn [Nat.add].
    change (seq (m + 1)) with (seq (0 + (m + 1))). rewrite <- seq_app. f_equal. lia.
Qed.
Example c31_gathered_ok : gathered 6 (ranksOf 0 [2; 1; 3]%nat [10; 11; 12; 13; 14; 15; 16; 17]) = [10; 11; 12; 13; 14; 15; 16; 17].
Proof. reflexivity. Qed.
(** generateTemperatureGrid gathers with the new number of grid points (PetscSolver1DHandler.cpp:48)
    and the old pieces: after the grid has grown the value behind the bulk end is missing and
    the last entries of broadcastedTemp are not set. *)
Theorem c31_after_growth_refuted m (T : list R) : (1 <= m)%nat -> length T = (m + 2)%nat ->
  length (gathered (m + 1) (ranksOf 0 [m] T)) = (m + 1)%nat.
Proof.
  intros Hm HT. cbn [ranksOf gathered flat_map]. rewrite app_nil_r. unfold valuesToSend, toSend. cbn [localXS localXM Nat.eqb orb andb Nat.add].
  rewrite map_length, seq_length. destruct (Nat.eqb_spec m (m + 1)); lia.
Qed.
Example c31_after_growth_ok : gathered 4 (ranksOf 0 [3]%nat [10; 11; 12; 13; 14]) = [10; 11; 12; 13].
Proof. reflexivity. Qed.
Print Assumptions c31_gathered.
Print Assumptions c31_after_growth_refuted.

(** ** C52 *)
Lemma loc_step g i : increasing g -> (2 <= length g)%nat -> (S i < length g)%nat -> loc g i < loc g (S i).
Proof.
  intros H H2 Hi. destruct i as [|i]; cbn [loc].
  - specialize (H 0%nat ltac:(lia)). lra.
  - pose proof (H i ltac:(lia)). pose proof (H (S i) ltac:(lia)). lra.
Qed.
Lemma search_some tg temps x js v : search tg temps x js = Some v -> exists j, In j js /\ loc tg j <= x < loc tg (S j) /\
  v = temps.[j] + (x - loc tg j) / (loc tg (S j) - loc tg j) * (temps.[S j] - temps.[j]).
Proof.
  induction js as [|j r IH]; cbn [search]; [discriminate|].
  destruct (Rle_dec (loc tg j) x); [|intros H; destruct (IH H) as [k [? ?]]; exists k; split; [right; auto|auto]].
  destruct (Rlt_dec x (loc tg (S j))).
  - intros H. injection H as <-. exists j. split; [left; auto|]. split; auto.
  - intros H. destruct (IH H) as [k [? ?]]; exists k; split; [right; auto|auto].
Qed.
Lemma search_none tg temps x js : search tg temps x js = None -> forall j, In j js -> ~ (loc tg j <= x < loc tg (S j)).
Proof.
  induction js as [|j r IH]; cbn [search]; intros H k Hk; [destruct Hk|].
  destruct (Rle_dec (loc tg j) x); [destruct (Rlt_dec x (loc tg (S j))); [discriminate|]|];
  (destruct Hk as [<- | Hk]; [lra|apply IH; auto]).
Qed.
Lemma covered f (n : nat) x : f 0%nat <= x < f n -> exists j, (j < n)%nat /\ f j <= x < f (S j).
Proof.
  induction n as [|n IH]; intros H; [lra|]. destruct (Rlt_dec x (f n)) as [L|L].
  - destruct (IH ltac:(lra)) as [j [Hj Hx]]. exists j. split; [lia|auto].
  - exists n. split; [lia|lra].
Qed.
(** The spec: linear interpolation of the temperatures at the positions of the points. *)
Definition linear (tg temps : list R) (nX : nat) (x v : R) : Prop :=
  exists j, (j <= nX)%nat /\ loc tg j <= x < loc tg (S j) /\
    v * (loc tg (S j) - loc tg j) = temps.[j] * (loc tg (S j) - x) + temps.[S j] * (x - loc tg j).
Theorem c52_linear_partial nX g tg temps i : increasing tg -> (nX + 2 <= length tg)%nat ->
  loc tg 0 <= loc g i < loc tg (nX + 1) -> linear tg temps nX (loc g i) (interpolated nX g tg temps i).
Proof.
  intros Ht Hl Hx. unfold interpolated. destruct (search tg temps (loc g i) (seq 0 (nX + 1))) as [v|] eqn:E.
  - destruct (search_some _ _ _ _ _ E) as [j [Hj [Hb ->]]]. apply in_seq in Hj. exists j. split; [lia|]. split; [exact Hb|].
    field. lra.
  - destruct (covered (loc tg) (nX + 1) (loc g i) Hx) as [j [Hj Hb]]. exfalso.
    apply (search_none _ _ _ _ E j); auto. apply in_seq. lia.
Qed.
(** Behind the last point: its temperature. *)
Theorem c52_behind nX g tg temps i : increasing tg -> (nX + 2 <= length tg)%nat -> loc tg (nX + 1) <= loc g i ->
  interpolated nX g tg temps i = temps.[nX + 1].
Proof.
  intros Ht Hl Hx. unfold interpolated. destruct (search tg temps (loc g i) (seq 0 (nX + 1))) as [v|] eqn:E; [|reflexivity].
  exfalso. destruct (search_some _ _ _ _ _ E) as [j [Hj [Hb _]]]. apply in_seq in Hj.
  assert (Hm : forall k, (j < k <= nX + 1)%nat -> loc tg (S j) <= loc tg k).
  { intros k [H1 H2]. induction H1 as [|k H1 IH]; [lra|]. pose proof (loc_step tg k Ht ltac:(lia) ltac:(lia)). specialize (IH ltac:(lia)). lra. }
  specialize (Hm (nX + 1)%nat ltac:(lia)). lra.
Qed.
(** No new extremes. *)
Theorem c52_bounds nX g tg temps i lo hi : (forall j, (j <= nX + 1)%nat -> lo <= temps.[j] <= hi) ->
  lo <= interpolated nX g tg temps i <= hi.
Proof.
  intros Hb. unfold interpolated. destruct (search tg temps (loc g i) (seq 0 (nX + 1))) as [v|] eqn:E; [|apply Hb; lia].
  destruct (search_some _ _ _ _ _ E) as [j [Hj [Hx ->]]]. apply in_seq in Hj.
  pose proof (Hb j ltac:(lia)) as B1. pose proof (Hb (S j) ltac:(lia)) as B2.
  set (w := (loc g i - loc tg j) / (loc tg (S j) - loc tg j)).
  assert (0 <= w <= 1).
  { unfold w. split; [apply Rmult_le_pos; [lra|left; apply Rinv_0_lt_compat; lra]|].
    apply (Rmult_le_reg_r (loc tg (S j) - loc tg j)); [lra|]. replace ((loc g i - loc tg j) / (loc tg (S j) - loc tg j) * (loc tg (S j) - loc tg j)) with (loc g i - loc tg j) by (field; lra). lra. }
  split; nra.
Qed.
(** On the same grid nothing changes. *)
Theorem c52_same_grid nX g temps i : increasing g -> (nX + 2 <= length g)%nat -> (i <= nX + 1)%nat -> interpolated nX g g temps i = temps.[i].
Proof.
  intros Hg Hl Hi. destruct (Nat.eq_dec i (nX + 1)) as [->|].
  - apply c52_behind; auto. lra.
  - assert (Hm : forall a b, (a < b <= nX + 1)%nat -> loc g a < loc g b).
    { intros a b [H1 H2]. induction H1 as [|b H1 IH]; [apply loc_step; auto; lia|].
      pose proof (loc_step g b Hg ltac:(lia) ltac:(lia)). specialize (IH ltac:(lia)). lra. }
    assert (Hr : loc g 0 <= loc g i < loc g (nX + 1)).
    { split; [destruct i; [lra|]; left; apply Hm; lia|apply Hm; lia]. }
    destruct (c52_linear_partial nX g g temps i Hg Hl Hr) as [j [Hj [Hx Hv]]].
    assert (j = i). { destruct (lt_eq_lt_dec j i) as [[X|X]|X]; auto; exfalso.
      - destruct (Nat.eq_dec (S j) i) as [Y|Y]; [rewrite Y in Hx; lra|]. pose proof (Hm (S j) i ltac:(lia)). lra.
      - pose proof (Hm i j ltac:(lia)). lra. }
    subst j. apply (Rmult_eq_reg_r (loc g (S i) - loc g i)); lra.
Qed.
Example c52_ok : increasing gEx /\ (6 + 2 <= length gEx)%nat /\ loc gEx 0 <= loc [0; 0.5; 2; 9] 2 < loc gEx 7.
Proof. split; [apply gEx_inc|]. cbn. split; [lia|lra]. Qed.
(** The entry left of the surface: on every uniform grid the temperature grid starts nearer to
    the surface, and the point is given the temperature behind the bulk end. *)
Theorem c52_left_ghost_refuted n h temps : (3 <= n)%nat -> 0 < h ->
  interpolated n (gridUniform n h) (temperatureGrid (gridUniform n h)) temps 0 = temps.[n + 1].
Proof.
  intros Hn Hh. set (g := gridUniform n h). set (tg := temperatureGrid g).
  destruct (c30_first_uniform n h Hh) as [_ L]. fold g in L.
  set (m := INR n - 1.5). assert (Hm : 1 < m). { unfold m. assert (INR 3 <= INR n) by (apply le_INR; auto). cbn [INR] in *. lra. }
  assert (Ew : (g.[length g - 3] + g.[length g - 2]) / 2 - g.[1] = m * h).
  { rewrite L. unfold g. rewrite !uniform_at by lia. replace (n + 2 - 2)%nat with n by lia. replace (n + 2 - 3)%nat with (n - 1)%nat by lia.
    rewrite minus_INR by lia. cbn [INR]. unfold m. lra. }
  assert (Eh : newH g = Rpower (m * h) (1 / tempGridPower) / m).
  { unfold newH. rewrite Ew. rewrite L. replace (n + 2 - 2)%nat with n by lia. reflexivity. }
  assert (Hw : 0 < m * h) by (apply Rmult_lt_0_compat; lra).
  assert (Ef : Rpower (newH g) tempGridPower < h).
  { rewrite Eh. unfold Rdiv at 1. rewrite <- Rpower_mult_distr; [|apply exp_pos|apply Rinv_0_lt_compat; lra].
    rewrite Rpower_mult. unfold tempGridPower at 1 2. replace (1 / 2.5 * 2.5) with 1 by lra. rewrite Rpower_1 by auto.
    replace (/ m) with (Rpower m (-(1))). 2:{ rewrite Rpower_Ropp, Rpower_1 by lra. reflexivity. }
    rewrite Rpower_mult. replace (-(1) * tempGridPower) with (- tempGridPower) by lra. rewrite Rpower_Ropp.
    assert (Hp : m < Rpower m tempGridPower). { rewrite <- (Rpower_1 m) at 1 by lra. apply Rpower_lt; [lra|]. unfold tempGridPower. lra. }
    apply (Rmult_lt_reg_r (Rpower m tempGridPower)); [lra|].
    replace (m * h * / Rpower m tempGridPower * Rpower m tempGridPower) with (m * h) by (field; lra). nra. }
  assert (Hpos : 0 < Rpower (newH g) tempGridPower) by apply exp_pos.
  unfold interpolated. destruct (search tg temps (loc g 0) (seq 0 (n + 1))) as [v|] eqn:E; [|reflexivity]. exfalso.
  destruct (search_some _ _ _ _ _ E) as [j [Hj [[Hx _] _]]]. apply in_seq in Hj.
  assert (El : loc g 0 = - h). { unfold loc, g. rewrite !uniform_at by lia. cbn [INR]. lra. }
  rewrite El in Hx. assert (Hge : - Rpower (newH g) tempGridPower <= loc tg j); [|lra].
  assert (T0 : tg.[0] = 0) by reflexivity. assert (T1 : tg.[1] = Rpower (newH g) tempGridPower) by reflexivity.
  assert (Hall : forall k, 0 <= tg.[k]).
  { intros k. unfold tg, temperatureGrid. destruct k as [|[|k]]; [cbn; lra|cbn [app nth]; lra|]. cbn [app nth].
    destruct (nth_in_or_default k (map (fun i => Rpower (newH g) tempGridPower + Rpower (INR (i - 1) * newH g) tempGridPower) (seq 2 (length g - 2))) 0) as [Hin | ->]; [|lra].
    apply in_map_iff in Hin. destruct Hin as [i [<- _]]. pose proof (exp_pos (tempGridPower * ln (INR (i - 1) * newH g))). unfold Rpower in *. lra. }
  destruct j as [|j]; cbn [loc].
  - rewrite T0, T1. lra.
  - rewrite T1. pose proof (Hall j). pose proof (Hall (S j)). lra.
Qed.
Print Assumptions c52_linear_partial.
Print Assumptions c52_behind.
Print Assumptions c52_bounds.
Print Assumptions c52_same_grid.
Print Assumptions c52_left_ghost_refuted.
