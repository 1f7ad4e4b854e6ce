(** Properties C18 (annihilation products) and C19 (general products). *)
From Verif Require Import GenBox.
Open Scope Z_scope.

(** * C18 *)
(** A net amount of vacancies which some pair of compositions leaves. *)
Definition reachable (vb ve ib ie n : Z) : Prop := exists v i, vb <= v < ve /\ ib <= i < ie /\ n = v - i.
Lemma reachable_range vb ve ib ie n : vb < ve -> ib < ie ->
  reachable vb ve ib ie n <-> In n (range (vb - ie + 1) (ve - 1 - ib)).
Proof.
  intros H1 H2. rewrite range_In. unfold reachable. split; [intros (v & i & ?); lia|].
  intros H. exists (Z.max vb (Z.min (ve - 1) (n + ib))), (Z.max vb (Z.min (ve - 1) (n + ib)) - n). lia.
Qed.
Definition annihilation (findV findI : Z -> option nat) (reach : Z -> Prop) (P : prods) : Prop :=
  NoDup P /\
  (forall t, In (Some t) P <-> exists n, reach n /\ ((0 < n /\ findV n = Some t) \/ (n < 0 /\ findI (- n) = Some t))) /\
  (In None P <-> reach 0).

Lemma zr_annihilation findV findI loV hiV loI hiI vb ve ib ie :
  tiling findV loV hiV -> tiling findI loI hiI -> apart findV findI -> vb < ve -> ib < ie ->
  annihilation findV findI (reachable vb ve ib ie) (zrIV findV findI vb ve ib ie).
Proof.
  intros TV TI AP H1 H2. unfold zrIV.
  destruct (dedupe_spec _ (@convex_contig _ Z.lt (zrLook findV findI) _ (range_sorted (vb - ie + 1) (ve - 1 - ib))
              (@zr_convex findV findI loV hiV loI hiI _ TV TI AP))) as (ND & HS & HN).
  split; [exact ND|]. split.
  - intros t. rewrite HS, in_map_iff. split.
    + intros (s & E & Hin). exists s. rewrite reachable_range by assumption. split; [exact Hin|]. unfold zrLook in E.
      destruct (Z.ltb_spec 0 s); [left; split; [lia|congruence]|]. destruct (Z.ltb_spec s 0); [right; split; [lia|congruence]|discriminate].
    + intros (s & Hr & Hf). exists s. rewrite reachable_range in Hr by assumption. split; [|exact Hr]. unfold zrLook.
      destruct Hf as [[Hs E]|[Hs E]].
      * destruct (Z.ltb_spec 0 s); [congruence|lia].
      * destruct (Z.ltb_spec 0 s); [lia|]. destruct (Z.ltb_spec s 0); [congruence|lia].
  - rewrite HN, in_map_iff, reachable_range by assumption. split.
    + intros (s & E & Hin). unfold zrLook in E. destruct (Z.ltb_spec 0 s); [discriminate|]. destruct (Z.ltb_spec s 0); [discriminate|].
      replace 0 with s by lia. exact Hin.
    + intros Hin. exists 0. split; [reflexivity|exact Hin].
Qed.

(** PSI networks, grouped or not. *)
Theorem c18_psi : forall findV findI loV hiV loI hiI vb ve ib ie,
  tiling findV loV hiV -> tiling findI loI hiI -> apart findV findI -> vb < ve -> ib < ie ->
  annihilation findV findI (reachable vb ve ib ie) (psiIV findV findI loV hiV loI hiI vb ve ib ie).
Proof.
  intros findV findI loV hiV loI hiI vb ve ib ie TV TI AP H1 H2. rewrite psiIV_zr by assumption.
  exact (@zr_annihilation _ _ _ _ _ _ _ _ _ _ TV TI AP H1 H2).
Qed.
Print Assumptions c18_psi.

(** Zr networks. *)
Theorem c18_zr : forall findV findI loV hiV loI hiI vb ve ib ie,
  tiling findV loV hiV -> tiling findI loI hiI -> apart findV findI -> vb < ve -> ib < ie ->
  annihilation findV findI (reachable vb ve ib ie) (zrIV findV findI vb ve ib ie).
Proof. exact zr_annihilation. Qed.
Print Assumptions c18_zr.

(** Zr: an interstitial meeting a basal cluster; up to size 9 the product is a
    vacancy cluster, above a basal one. *)
Theorem c18_zr_basal : forall findV findI findB loV hiV loI hiI loB hiB bb be ib ie,
  tiling findV loV hiV -> tiling findI loI hiI -> tiling findB loB hiB ->
  apart findV findI -> apart findB findI -> apart findB findV -> bb < be -> ib < ie ->
  annihilation (fun n => if 9 <? n then findB n else findV n) findI (reachable bb be ib ie) (zrIB findV findI findB bb be ib ie).
Proof.
  intros findV findI findB loV hiV loI hiI loB hiB bb be ib ie TV TI TB A1 A2 A3 H1 H2. unfold zrIB.
  destruct (dedupe_spec _ (@convex_contig _ Z.lt (zrBasalLook findV findI findB) _ (range_sorted (bb - ie + 1) (be - 1 - ib))
              (@zrB_convex findV findI findB loV hiV loI hiI loB hiB _ TV TI TB A1 A2 A3))) as (ND & HS & HN).
  split; [exact ND|]. split.
  - intros t. rewrite HS, in_map_iff. split.
    + intros (s & E & Hin). exists s. rewrite reachable_range by assumption. split; [exact Hin|]. unfold zrBasalLook, zrLook in E.
      destruct (Z.ltb_spec 9 s); [left; split; [lia|congruence]|].
      destruct (Z.ltb_spec 0 s); [left; split; [lia|congruence]|]. destruct (Z.ltb_spec s 0); [right; split; [lia|congruence]|discriminate].
    + intros (s & Hr & Hf). exists s. rewrite reachable_range in Hr by assumption. split; [|exact Hr]. unfold zrBasalLook, zrLook.
      destruct Hf as [[Hs E]|[Hs E]].
      * destruct (Z.ltb_spec 9 s); [congruence|]. destruct (Z.ltb_spec 0 s); [congruence|lia].
      * destruct (Z.ltb_spec 9 s); [lia|]. destruct (Z.ltb_spec 0 s); [lia|]. destruct (Z.ltb_spec s 0); [congruence|lia].
  - rewrite HN, in_map_iff, reachable_range by assumption. split.
    + intros (s & E & Hin). unfold zrBasalLook, zrLook in E. destruct (Z.ltb_spec 9 s); [discriminate|].
      destruct (Z.ltb_spec 0 s); [discriminate|]. destruct (Z.ltb_spec s 0); [discriminate|].
      replace 0 with s by lia. exact Hin.
    + intros Hin. exists 0. split; [reflexivity|exact Hin].
Qed.
Print Assumptions c18_zr_basal.

(** PSI, two interstitial clusters: each cluster whose range holds a reachable
    sum, once; the reverse reactions exactly when one reactant is single. *)
Theorem c18_psi_clustering : forall findI loI hiI l1 h1 l2 h2,
  tiling findI loI hiI -> 0 < l1 < h1 -> 0 < l2 < h2 ->
  let P := psiII findI loI hiI l1 h1 l2 h2 in
  NoDup P /\ (forall t, In t P <-> exists a b, l1 <= a < h1 /\ l2 <= b < h2 /\ findI (a + b) = Some t) /\
  psiIIDiss findI loI hiI l1 h1 l2 h2 = (if (l1 =? 1) || (l2 =? 1) then P else []).
Proof.
  intros findI loI hiI l1 h1 l2 h2 TI H1 H2 P.
  assert (E : map Some P = dedupe None (map (fun s => Look (findI s)) (range (l1 + l2) (h1 + h2 - 2)))).
  { unfold P, psiII. apply (@iiLoop_dedupe findI loI hiI TI); [apply range_sorted| |].
    - intros s Hs. apply range_In in Hs. lia.
    - intros s Hs. apply range_In in Hs. unfold inRange. cbn [fst snd]. split; [lia|]. intros (t & H & _). discriminate. }
  assert (C : contig (map (fun s => Look (findI s)) (range (l1 + l2) (h1 + h2 - 2)))).
  { apply (@convex_contig _ Z.lt); [apply range_sorted|]. split; [|discriminate].
    intros a b c t x Ia Ib Ic Hab Hbc [= Ea] [= Ec] [= Eb]. apply range_In in Ia.
    assert (findI b = Some t) by (apply (@tiling_convex findI loI hiI a b c t TI); auto; lia). congruence. }
  destruct (dedupe_spec _ C) as (ND & HS & _). rewrite <- E in ND, HS. split; [|split; [|reflexivity]].
  - eapply NoDup_map_inv. exact ND.
  - intros t. transitivity (In (Some t) (map Some P)).
    + rewrite in_map_iff. split; [intros H; exists t; auto|intros (u & [= ->] & H); exact H].
    + rewrite HS, in_map_iff. split.
      * intros (s & [= Es] & Hin). apply range_In in Hin.
        exists (Z.max l1 (s - (h2 - 1))), (s - Z.max l1 (s - (h2 - 1))). repeat split; try lia. rewrite <- Es. f_equal. lia.
      * intros (a & b & Ha & Hb & Ef). exists (a + b). split; [congruence|]. apply range_In. lia.
Qed.
Print Assumptions c18_psi_clustering.

(** Alloy networks: a vacancy cluster of one size meeting a perfect (or Frank)
    loop; interstitial clusters reach up to [m], loops start at [m]. The product
    may be an interstitial cluster or a loop of the same net size. *)
Theorem c18_alloy_vacancy_loop : forall findV findI findP loV hiV loI hiI loP hiP m v pb pe,
  tiling findV loV hiV -> tiling findI loI hiI -> tiling findP loP hiP ->
  apart findV findI -> apart findV findP -> apart findI findP ->
  (forall k t, findI k = Some t -> k <= m) -> (forall k t, findP k = Some t -> m <= k) -> pb < pe ->
  let P := alloyVP findV findI findP v pb pe in
  NoDup P /\
  (forall t, In (Some t) P <-> exists k, pb <= k < pe /\
     ((0 < k - v /\ (findI (k - v) = Some t \/ findP (k - v) = Some t)) \/ (k - v < 0 /\ findV (v - k) = Some t))) /\
  (In None P <-> pb <= v < pe).
Proof.
  intros findV findI findP loV hiV loI hiI loP hiP m v pb pe TV TI TP A1 A2 A3 HI HP Hp P.
  unfold P, alloyVP. rewrite alloy_flat.
  destruct (dedupe_spec _ (@convex_contig _ lex _ _ (@positions_sorted _ (range_sorted pb (pe - 1)))
              (@alloy_convex findV findI findP loV hiV loI hiI loP hiP v m _ TV TI TP A1 A2 A3 HI HP))) as (ND & HS & HN).
  split; [exact ND|]. split.
  - intros t. rewrite HS, two_flat. split.
    + intros (k & Hk & E). apply range_In in Hk. exists k. split; [lia|].
      destruct (Z.ltb_spec 0 (k - v)) as [|Hle]; [left; split; [lia|destruct E; [left|right]; congruence]|].
      destruct (Z.ltb_spec (k - v) 0); destruct E as [E|E]; try discriminate. right. split; [lia|]. injection E as E. rewrite <- E. f_equal. lia.
    + intros (k & Hk & E). exists k. split; [apply range_In; lia|].
      destruct E as [[Hs [E|E]]|[Hs E]].
      * left. destruct (Z.ltb_spec 0 (k - v)); [congruence|lia].
      * right. destruct (Z.ltb_spec 0 (k - v)); [congruence|lia].
      * left. destruct (Z.ltb_spec 0 (k - v)); [lia|]. destruct (Z.ltb_spec (k - v) 0); [|lia].
        rewrite <- E. do 2 f_equal. lia.
  - rewrite HN, two_flat_N. split.
    + intros (k & Hk & E). apply range_In in Hk.
      destruct (Z.ltb_spec 0 (k - v)) as [|Hle]; [destruct E; discriminate|].
      destruct (Z.ltb_spec (k - v) 0); [destruct E; discriminate|]. lia.
    + intros H. exists v. split; [apply range_In; lia|]. left. rewrite Z.sub_diag. reflexivity.
Qed.
Print Assumptions c18_alloy_vacancy_loop.

(** Alloy, perfect loop meeting a faulted loop (or a void): ungrouped clusters
    never get any reaction. *)
Theorem c18_alloy_perfect_faulted_refuted : forall findV findF p f,
  0 < p < 2147483648 -> 0 < f < 2147483648 -> alloyPF findV findF p (p + 1) f (f + 1) = [].
Proof.
  intros findV findF p f Hp Hf. unfold alloyPF.
  replace (0 + f - 1 - (p + 1) + 2) with (f - p) by lia. replace (1 + (f + 1) - 0 - p - 2) with (f - p) by lia.
  unfold range. replace (Z.to_nat _) with 0%nat by lia. reflexivity.
Qed.
Print Assumptions c18_alloy_perfect_faulted_refuted.

(** Nor do grouped ones when some pair leaves net interstitials but the largest
    net amount is not negative. *)
Theorem c18_alloy_perfect_faulted_wrap_refuted : forall findV findF pb pe fb fe,
  0 < pb < pe -> pe < 2147483648 -> 0 < fb < fe -> fe < 2147483648 -> fb - (pe - 1) < 0 -> 0 <= fe - 1 - pb ->
  alloyPF findV findF pb pe fb fe = [].
Proof.
  intros findV findF pb pe fb fe H1 H2 H3 H4 H5 H6. unfold alloyPF.
  rewrite (@u32_neg (0 + fb - 1 - pe + 2)) by lia. rewrite (@u32_small (1 + fe - 0 - pb - 2)) by lia.
  unfold range. replace (Z.to_nat _) with 0%nat by lia. reflexivity.
Qed.
Print Assumptions c18_alloy_perfect_faulted_wrap_refuted.

(** Alloy, interstitial meeting a faulted loop (or a void) which is not larger:
    no reaction, although it annihilates the loop. *)
Theorem c18_alloy_interstitial_faulted_refuted : forall findV findF i fb fe,
  fe - 1 <= i -> alloyIF findV findF i fb fe = [].
Proof.
  intros findV findF i fb fe H. unfold alloyIF.
  assert (E : forall l, (forall k, In k l -> k <= i) -> flat_map (fun k => alloyIFLook findV findF (k - i)) l = []).
  { induction l as [|k l IH]; intros Hl; [reflexivity|]. cbn. rewrite IH by (intros; apply Hl; right; assumption).
    unfold alloyIFLook. pose proof (Hl k (or_introl eq_refl)). destruct (Z.ltb_spec 0 (k - i)); [lia|reflexivity]. }
  rewrite E; [reflexivity|]. intros k Hk. apply range_In in Hk. lia.
Qed.
Print Assumptions c18_alloy_interstitial_faulted_refuted.

(** Vacancies: 1, 2, [3,6), [6,9); interstitials: 1, [2,5). *)
Definition exV (k : Z) : option nat :=
  if k =? 1 then Some 0%nat else if k =? 2 then Some 1%nat
  else if (3 <=? k) && (k <? 6) then Some 2%nat else if (6 <=? k) && (k <? 9) then Some 3%nat else None.
Definition exI (k : Z) : option nat := if k =? 1 then Some 4%nat else if (2 <=? k) && (k <? 5) then Some 5%nat else None.
Definition exLo (t : nat) : Z := match t with 0%nat => 1 | 1%nat => 2 | 2%nat => 3 | 3%nat => 6 | 4%nat => 1 | _ => 2 end.
Definition exHi (t : nat) : Z := match t with 0%nat => 2 | 1%nat => 3 | 2%nat => 6 | 3%nat => 9 | 4%nat => 2 | _ => 5 end.
Example c18_example :
  psiIV exV exI exLo exHi exLo exHi 1 6 2 4 = [Some 5%nat; Some 4%nat; None; Some 0%nat; Some 1%nat; Some 2%nat] /\
  psiII exI exLo exHi 1 2 1 3 = [5%nat] /\ alloyPF exV exI 3 4 5 6 = [].
Proof. repeat split; reflexivity. Qed.
Example c18_example_hyps : tiling exV exLo exHi /\ tiling exI exLo exHi /\ apart exV exI.
Proof.
  assert (TV : tiling exV exLo exHi).
  { intros k t Hk. unfold exV.
    destruct (Z.eqb_spec k 1), (Z.eqb_spec k 2), (Z.leb_spec 3 k), (Z.ltb_spec k 6), (Z.leb_spec 6 k), (Z.ltb_spec k 9); cbn [andb];
      try lia; intros [= <-]; cbn [exLo exHi]; repeat split; try lia; intros k' Hk' Hr;
      destruct (Z.eqb_spec k' 1), (Z.eqb_spec k' 2), (Z.leb_spec 3 k'), (Z.ltb_spec k' 6), (Z.leb_spec 6 k'), (Z.ltb_spec k' 9); cbn [andb]; try lia; reflexivity. }
  assert (TI : tiling exI exLo exHi).
  { intros k t Hk. unfold exI.
    destruct (Z.eqb_spec k 1), (Z.leb_spec 2 k), (Z.ltb_spec k 5); cbn [andb]; try lia; intros [= <-]; cbn [exLo exHi];
      repeat split; try lia; intros k' Hk' Hr; destruct (Z.eqb_spec k' 1), (Z.leb_spec 2 k'), (Z.ltb_spec k' 5); cbn [andb]; try lia; reflexivity. }
  split; [exact TV|]. split; [exact TI|].
  intros a b t u Ha Hb. unfold exV, exI.
  destruct (a =? 1); [|destruct (a =? 2); [|destruct ((3 <=? a) && (a <? 6)); [|destruct ((6 <=? a) && (a <? 9)); [|discriminate]]]];
    intros [= <-]; (destruct (b =? 1); [|destruct ((2 <=? b) && (b <? 5)); [|discriminate]]); intros [= <-]; discriminate.
Qed.

(** * C19 *)
(** Acceptance = existence of a balanced reaction, for products without
    interstitials, when the vacancy bounds do not change sign. *)
Theorem c19_accept_partial : forall b1 b2 p,
  fitsBox b1 -> fitsBox b2 -> fitsBox p -> sameAxes b1 b2 -> sameAxes p b1 -> interstitialFree p ->
  0 <= vacFirst b1 b2 \/ vacSecond b1 b2 < 0 ->
  (accepts b1 b2 p = true <-> balanced 0 b1 b2 p).
Proof.
  intros b1 b2 p F1 F2 FP L1 L2 HI [H|H].
  - unfold accepts. rewrite vacBounds_eq by assumption.
    rewrite <- (@isGood_balanced b1 b2 p 0) by (auto; lia). rewrite !Z.add_0_r. tauto.
  - split; intros HH; exfalso; [|apply (balanced_wrap FP HI H HH)].
    rewrite accepts_wrap in HH; auto; [discriminate|].
    destruct F1 as (_ & A & B), F2 as (_ & C & D). unfold fits, vacFirst, vacSecond in *. lia.
Qed.
Print Assumptions c19_accept_partial.

(** Reactants without interstitials: no restriction at all. *)
Theorem c19_accept_no_interstitial : forall b1 b2 p,
  fitsBox b1 -> fitsBox b2 -> fitsBox p -> sameAxes b1 b2 -> sameAxes p b1 ->
  interstitialFree b1 -> interstitialFree b2 -> interstitialFree p ->
  (accepts b1 b2 p = true <-> balanced 0 b1 b2 p).
Proof.
  intros b1 b2 p F1 F2 FP L1 L2 I1 I2 IP. apply c19_accept_partial; auto. left.
  destruct (vacFirst_free I1 I2) as [-> _]. destruct F1 as (_ & A & _), F2 as (_ & B & _). unfold fits in *. lia.
Qed.
Print Assumptions c19_accept_no_interstitial.

(** Clusters of pure interstitials; clusters which hold something. *)
Definition pureInt (p : box) : Prop := Forall (eq (0, 1)) (gas p) /\ vac p = (0, 1) /\ 0 < fst (int p).
Definition holds (b : box) : Prop := ~ inBox b (repeat 0 (length (gas b))) 0 0.
Definition clean (b1 p : box) : Prop := fitsBox p /\ sameAxes p b1 /\ (interstitialFree p \/ pureInt p).

Lemma holds_axis b : fitsBox b -> interstitialFree b -> holds b -> 0 < fst (vac b) \/ Exists (fun r => 0 < fst r) (gas b).
Proof.
  intros (G & V & _) HI HH. unfold fits in V. destruct (Z_lt_le_dec 0 (fst (vac b))) as [|Hv]; [left; assumption|right].
  apply Exists_exists. destruct (existsb (fun r => 0 <? fst r) (gas b)) eqn:E.
  - apply existsb_exists in E as (r & Hin & Hr). exists r. split; [exact Hin|]. apply Z.ltb_lt. exact Hr.
  - exfalso. apply HH. unfold inBox. rewrite HI. split; [|unfold inside; cbn; lia].
    clear -G E. induction G as [|r g Hr HG IH]; cbn in *; [constructor|].
    apply orb_false_iff in E as [E1 E2]. apply Z.ltb_ge in E1. constructor; [|apply IH; exact E2].
    unfold inside, fits in *. lia.
Qed.
Lemma pure_gas_low ps g1 g2 : Forall (eq (0, 1)) ps -> Forall fits g1 -> Forall fits g2 -> length ps = length g1 -> length g1 = length g2 ->
  Exists (fun r => 0 < fst r) g1 ->
  forallb (fun '(a, b) => axisGood a b)
    (combine ps (map (fun '((l1, h1), (l2, h2)) => (u32 (l1 + l2), u32 (h1 + h2 - 2))) (combine g1 g2))) = false.
Proof.
  revert g1 g2. induction ps as [|p ps IH]; intros [|[l1 h1] g1] [|[l2 h2] g2] Fp F1 F2 L1 L2 HE; try discriminate; [inversion HE|].
  inversion Fp; inversion F1; inversion F2; subst. cbn [combine map forallb]. apply andb_false_iff.
  inversion HE; subst; [left|right; apply IH; auto; cbn in *; lia].
  unfold axisGood, fits in *. cbn [fst snd] in *. rewrite (@u32_small (l1 + l2)), (@u32_small (1 - 1)) by lia.
  apply andb_false_iff. right. apply negb_false_iff. apply Z.ltb_lt. lia.
Qed.
Lemma pure_rejected b1 b2 p n : fitsBox b1 -> fitsBox b2 -> fitsBox p -> sameAxes b1 b2 -> sameAxes p b1 ->
  interstitialFree b1 -> interstitialFree b2 -> pureInt p -> holds b1 -> 0 <= n <= 6 ->
  isGood (gasBounds b1 b2) (u32 (vacFirst b1 b2 + n), u32 (vacSecond b1 b2 + n)) p = false /\ ~ balanced n b1 b2 p.
Proof.
  intros F1 F2 FP L1 L2 I1 I2 (PG & PV & PI) HH Hn. split.
  - unfold isGood. apply andb_false_iff. destruct (holds_axis _ F1 I1 HH) as [H|H].
    + right. destruct (vacFirst_free I1 I2) as [-> ->]. destruct F1 as (_ & V1 & _). destruct F2 as (_ & V2 & _). unfold fits in *.
      rewrite PV. unfold axisGood. cbn [fst snd]. rewrite (@u32_small (fst (vac b1) + fst (vac b2) + n)), (@u32_small (1 - 1)) by lia.
      apply andb_false_iff. right. apply negb_false_iff. apply Z.ltb_lt. lia.
    + left. unfold gasBounds. destruct F1 as (G1 & _). destruct F2 as (G2 & _). apply pure_gas_low; auto.
  - intros (g1 & g2 & v1 & v2 & i1 & i2 & v & i & (_ & A2 & A3) & (_ & B2 & B3) & (_ & C2 & C3) & E).
    destruct F1 as (_ & V1 & _). destruct F2 as (_ & V2 & _). rewrite I1 in A3. rewrite I2 in B3. rewrite PV in C2.
    unfold inside, fits in *. cbn [fst snd] in *. lia.
Qed.
Lemma good_balanced b1 b2 p n : fitsBox b1 -> fitsBox b2 -> sameAxes b1 b2 ->
  interstitialFree b1 -> interstitialFree b2 -> holds b1 -> clean b1 p -> 0 <= n <= 6 ->
  isGood (gasBounds b1 b2) (u32 (vacFirst b1 b2 + n), u32 (vacSecond b1 b2 + n)) p = true <-> balanced n b1 b2 p.
Proof.
  intros F1 F2 L1 I1 I2 HH (FP & L2 & [IP|IP]) Hn.
  - apply isGood_balanced; auto. destruct (vacFirst_free I1 I2) as [-> _]. destruct F1 as (_ & A & _), F2 as (_ & B & _). unfold fits in *. lia.
  - destruct (@pure_rejected b1 b2 p n) as [-> H]; auto. split; [discriminate|tauto].
Qed.

(** The generated products are exactly the clusters of a balanced reaction, each
    once. *)
Theorem c19_products : forall b1 b2 clusters k,
  fitsBox b1 -> fitsBox b2 -> sameAxes b1 b2 -> interstitialFree b1 -> interstitialFree b2 -> holds b1 ->
  Forall (clean b1) clusters ->
  NoDup (generalProducts b1 b2 clusters) /\
  (In k (generalProducts b1 b2 clusters) <-> exists p, nth_error clusters k = Some p /\ balanced 0 b1 b2 p).
Proof.
  intros b1 b2 clusters k F1 F2 L1 I1 I2 HH HC. rewrite Forall_forall in HC.
  assert (G : forall p, In p clusters -> accepts b1 b2 p = true <-> balanced 0 b1 b2 p).
  { intros p Hp. unfold accepts. rewrite vacBounds_eq by assumption. rewrite <- (@good_balanced b1 b2 p 0) by (auto; lia). rewrite !Z.add_0_r. tauto. }
  split.
  - apply NoDup_filter, seq_NoDup.
  - unfold generalProducts. rewrite filter_In, in_seq. split.
    + intros [Hk Ha]. exists (nth k clusters b1). split; [apply nth_error_nth'; lia|].
      apply G; [apply nth_In; lia|exact Ha].
    + intros (p & Hp & Hb). pose proof (nth_error_In _ _ Hp) as Hin.
      assert (k < length clusters)%nat by (apply nth_error_Some; congruence). split; [lia|].
      rewrite (nth_error_nth _ _ _ Hp). apply G; auto.
Qed.
Print Assumptions c19_products.

(** Trap mutation: with no gap among the interstitial sizes, the released
    interstitial is the smallest one for which some cluster balances, and all such
    clusters are products. *)
Theorem c19_trap_mutation : forall findI b1 b2 clusters,
  fitsBox b1 -> fitsBox b2 -> sameAxes b1 b2 -> interstitialFree b1 -> interstitialFree b2 -> holds b1 ->
  Forall (clean b1) clusters ->
  (forall m t, findI m = Some t -> forall m', 0 < m' < m -> findI m' <> None) ->
  forall k t, In (k, t) (tmProducts findI b1 b2 clusters) <->
  exists n p, 0 < n <= 6 /\ findI n = Some t /\ nth_error clusters k = Some p /\ balanced n b1 b2 p /\
    (forall n' p', 0 < n' < n -> In p' clusters -> ~ balanced n' b1 b2 p').
Proof.
  intros findI b1 b2 clusters F1 F2 L1 I1 I2 HH HC Hgap k t. rewrite Forall_forall in HC.
  unfold tmProducts. rewrite vacBounds_eq by assumption.
  replace (u32 (vacFirst b1 b2)) with (u32 (vacFirst b1 b2 + 0)) by (f_equal; lia).
  replace (u32 (vacSecond b1 b2)) with (u32 (vacSecond b1 b2 + 0)) by (f_equal; lia).
  rewrite (@tmLoop_spec findI b1 b2 clusters F1 F2 I1 I2 6 0); [|lia|cbn; lia|intros m u Hm E m' Hm'; apply (Hgap m u E); lia].
  assert (G : forall n k p, 0 <= n <= 6 -> nth_error clusters k = Some p -> good b1 b2 clusters n k = true <-> balanced n b1 b2 p).
  { intros n k0 p Hn Hp. unfold good. rewrite (nth_error_nth _ _ _ Hp). apply good_balanced; auto. apply HC. eapply nth_error_In; eauto. }
  split.
  - intros (m & Hm & Em & Hg & Hk & Hl). destruct (nth_error clusters k) as [p|] eqn:Ep; [|apply nth_error_None in Ep; lia].
    exists m, p. split; [lia|]. split; [exact Em|]. split; [reflexivity|]. split; [apply (G m k p); auto; lia|].
    intros n' p' Hn' Hp' Hb. apply In_nth_error in Hp' as (k' & Ek').
    assert (k' < length clusters)%nat by (apply nth_error_Some; congruence).
    pose proof (Hl n' k' ltac:(lia) ltac:(lia)) as Hf. rewrite <- (G n' k' p') in Hb by (auto; lia). congruence.
  - intros (m & p & Hm & Em & Ep & Hb & Hl). assert (k < length clusters)%nat by (apply nth_error_Some; congruence).
    exists m. split; [cbn; lia|]. split; [exact Em|]. split; [apply (G m k p); auto; lia|]. split; [assumption|].
    intros m' k' Hm' Hk'. destruct (nth_error clusters k') as [p'|] eqn:Ep'; [|apply nth_error_None in Ep'; lia].
    destruct (good b1 b2 clusters m' k') eqn:Eg; [|reflexivity]. exfalso.
    apply (Hl m' p'); [lia|eapply nth_error_In; eauto|]. apply (G m' k' p'); auto; lia.
Qed.
Print Assumptions c19_trap_mutation.

(** He_1 V_1 + He_1, clusters: V_1 I_1 I_2 He_2V_2 He_2V_3. *)
Definition exClusters : list box :=
  [Box [(0, 1)] (1, 2) (0, 1); Box [(0, 1)] (0, 1) (1, 2); Box [(0, 1)] (0, 1) (2, 3);
   Box [(2, 3)] (2, 3) (0, 1); Box [(2, 3)] (3, 4) (0, 1)].
Definition exFind (n : Z) : option nat := if n =? 1 then Some 1%nat else if n =? 2 then Some 2%nat else None.
Definition exHe1V1 : box := Box [(1, 2)] (1, 2) (0, 1).
Definition exHe1 : box := Box [(1, 2)] (0, 1) (0, 1).
Example c19_tm_example :
  generalProducts exHe1V1 exHe1 exClusters = [] /\ tmProducts exFind exHe1V1 exHe1 exClusters = [(3%nat, 1%nat)] /\
  generalProducts exHe1V1 exHe1V1 exClusters = [3%nat].
Proof. repeat split; reflexivity. Qed.
Example c19_tm_hyps :
  fitsBox exHe1V1 /\ fitsBox exHe1 /\ sameAxes exHe1V1 exHe1 /\ interstitialFree exHe1V1 /\ interstitialFree exHe1 /\ holds exHe1V1 /\
  Forall (clean exHe1V1) exClusters /\ (forall m t, exFind m = Some t -> forall m', 0 < m' < m -> exFind m' <> None).
Proof.
  unfold fitsBox, clean, sameAxes, interstitialFree, pureInt, fits, holds, exFind.
  split; [cbn; repeat constructor; cbn; lia|]. split; [cbn; repeat constructor; cbn; lia|].
  do 3 (split; [reflexivity|]). split; [intros (_ & H & _); unfold inside in H; cbn in H; lia|]. split.
  - unfold exClusters. repeat apply Forall_cons; try apply Forall_nil; cbn; repeat split; try lia; try (repeat constructor; cbn; lia);
      solve [left; reflexivity|right; repeat split; [repeat constructor|lia]].
  - intros m t. destruct (Z.eqb_spec m 1); [lia|]. destruct (Z.eqb_spec m 2); [|discriminate].
    intros _ m' Hm'. replace m' with 1 by lia. discriminate.
Qed.

(** With a gap (I_1 missing), the bounds are shifted one time too few: I_2 is
    released with a cluster holding one more vacancy, not two. *)
Theorem c19_trap_mutation_gap_refuted : exists findI b1 b2 clusters k t,
  fitsBox b1 /\ fitsBox b2 /\ sameAxes b1 b2 /\ interstitialFree b1 /\ interstitialFree b2 /\ holds b1 /\ Forall (clean b1) clusters /\
  findI 1 = None /\ findI 2 = Some t /\ In (k, t) (tmProducts findI b1 b2 clusters) /\ ~ balanced 2 b1 b2 (nth k clusters b1).
Proof.
  destruct c19_tm_hyps as (A & B & C & D & E & F & G & _).
  exists (fun n => if n =? 2 then Some 2%nat else None), exHe1V1, exHe1, exClusters, 3%nat, 2%nat.
  do 7 (split; [assumption|]). split; [reflexivity|]. split; [reflexivity|]. split; [left; reflexivity|].
  intros (g1 & g2 & v1 & v2 & i1 & i2 & v & i & (_ & A2 & A3) & (_ & B2 & B3) & (_ & C2 & C3) & H).
  unfold inside in *. cbn [fst snd vac int nth exClusters exHe1V1 exHe1] in *. lia.
Qed.
Print Assumptions c19_trap_mutation_gap_refuted.

(** The interstitial axis of a product is never looked at: V[4,6) + I_4 accepts I_7. *)
Theorem c19_accept_interstitial_product_refuted : exists b1 b2 p,
  fitsBox b1 /\ fitsBox b2 /\ fitsBox p /\ sameAxes b1 b2 /\ sameAxes p b1 /\ pureInt p /\ 0 <= vacFirst b1 b2 /\
  accepts b1 b2 p = true /\ ~ balanced 0 b1 b2 p.
Proof.
  exists (Box [(0, 1)] (4, 6) (0, 1)), (Box [(0, 1)] (0, 1) (4, 5)), (Box [(0, 1)] (0, 1) (7, 8)).
  unfold fitsBox, sameAxes, pureInt, fits. cbn. do 3 (split; [repeat constructor; cbn; lia|]).
  do 2 (split; [reflexivity|]). split; [repeat split; repeat constructor|]. split; [unfold vacFirst; cbn; lia|]. split; [reflexivity|].
  intros (g1 & g2 & v1 & v2 & i1 & i2 & v & i & (_ & A2 & A3) & (_ & B2 & B3) & (_ & C2 & C3) & H).
  unfold inside in *. cbn [fst snd vac int] in *. lia.
Qed.
Print Assumptions c19_accept_interstitial_product_refuted.

(** An interstitial group meeting a helium-vacancy group: a balanced reaction
    exists but is not accepted, because the lower bound wraps around. *)
Definition exHeV : box := Box [(1, 2)] (2, 5) (0, 1).
Definition exInt : box := Box [(0, 1)] (0, 1) (1, 5).
Definition exProd : box := Box [(1, 2)] (1, 2) (0, 1).
Theorem c19_accept_refuted : exists b1 b2 p,
  fitsBox b1 /\ fitsBox b2 /\ fitsBox p /\ sameAxes b1 b2 /\ sameAxes p b1 /\ interstitialFree p /\
  balanced 0 b1 b2 p /\ accepts b1 b2 p = false.
Proof.
  exists exHeV, exInt, exProd. unfold fitsBox, sameAxes, interstitialFree, fits. cbn.
  do 3 (split; [repeat constructor; cbn; lia|]). do 3 (split; [reflexivity|]). split; [|reflexivity].
  exists [1], [0], 2, 0, 0, 1, 1, 0. unfold inBox, inside, addUp. cbn. repeat split; try lia; repeat constructor; cbn; lia.
Qed.
Print Assumptions c19_accept_refuted.
