(** The general case of the generators: acceptance test against balanced
    reactions of single compositions. *)
From Verif Require Export GenProofs.
Set Implicit Arguments.
Open Scope Z_scope.

(** ** Specification. *)
Definition inside (r : Z * Z) (x : Z) : Prop := fst r <= x < snd r.
Definition inBox (b : box) (g : list Z) (v i : Z) : Prop :=
  Forall2 inside (gas b) g /\ inside (vac b) v /\ inside (int b) i.
Definition addUp (g1 g2 : list Z) : list Z := map (fun '(x, y) => x + y) (combine g1 g2).
(** One composition of each reactant and one of the product which balance:
    gases add up, interstitials annihilate vacancies. [extra] interstitials are
    released besides the product. *)
Definition balanced (extra : Z) (b1 b2 p : box) : Prop :=
  exists g1 g2 v1 v2 i1 i2 v i,
    inBox b1 g1 v1 i1 /\ inBox b2 g2 v2 i2 /\ inBox p (addUp g1 g2) v i /\
    v - i - extra = (v1 - i1) + (v2 - i2).

(** Sizes stay below 2^30, ranges are not empty. *)
Definition fits (r : Z * Z) : Prop := 0 <= fst r < snd r /\ snd r <= 1073741824.
Definition fitsBox (b : box) : Prop := Forall fits (gas b) /\ fits (vac b) /\ fits (int b).

(** ** Proofs. *)
Lemma u32_small x : 0 <= x < 4294967296 -> u32 x = x.
Proof. intros H. unfold u32. apply Z.mod_small. exact H. Qed.
Lemma u32_neg x : - 4294967296 <= x < 0 -> u32 x = x + 4294967296.
Proof.
  intros H. unfold u32. rewrite <- (Z.mod_small (x + 4294967296) 4294967296) by lia.
  rewrite <- (Z.mod_add x 1 4294967296) by lia. f_equal; lia.
Qed.

Lemma axis_exists p r1 r2 : fits p -> fits r1 -> fits r2 ->
  axisGood p (u32 (fst r1 + fst r2), u32 (snd r1 + snd r2 - 2)) = true <->
  exists x y, inside r1 x /\ inside r2 y /\ inside p (x + y).
Proof.
  unfold fits, axisGood, inside. intros Hp H1 H2. cbn [fst snd].
  rewrite !u32_small by lia. rewrite andb_true_iff, !negb_true_iff, !Z.ltb_ge. split.
  - intros [HA HB].
    exists (Z.max (fst r1) (Z.min (snd r1 - 1) (snd p - 1 - fst r2))).
    set (x := Z.max (fst r1) (Z.min (snd r1 - 1) (snd p - 1 - fst r2))).
    exists (Z.max (fst r2) (fst p - x)). unfold x. lia.
  - intros (x & y & ?). lia.
Qed.

Lemma gas_exists ps g1 g2 : Forall fits ps -> Forall fits g1 -> Forall fits g2 ->
  length ps = length g1 -> length g1 = length g2 ->
  forallb (fun '(a, b) => axisGood a b)
    (combine ps (map (fun '((l1, h1), (l2, h2)) => (u32 (l1 + l2), u32 (h1 + h2 - 2))) (combine g1 g2))) = true <->
  exists x y, Forall2 inside g1 x /\ Forall2 inside g2 y /\ Forall2 inside ps (addUp x y).
Proof.
  revert g1 g2. induction ps as [|p ps IH]; intros [|[l1 h1] g1] [|[l2 h2] g2] Fp F1 F2 L1 L2; try discriminate.
  - cbn. split; [|reflexivity]. intros _. exists [], []. repeat constructor.
  - inversion Fp; inversion F1; inversion F2; subst. cbn [combine map forallb]. rewrite andb_true_iff.
    change (u32 (l1 + l2), u32 (h1 + h2 - 2)) with (u32 (fst (l1, h1) + fst (l2, h2)), u32 (snd (l1, h1) + snd (l2, h2) - 2)).
    rewrite axis_exists by assumption. rewrite IH by (auto; cbn in *; lia). split.
    + intros [(x & y & A & B & C) (xs & ys & D & E & F)]. exists (x :: xs), (y :: ys). unfold addUp. cbn. auto.
    + intros (x & y & A & B & C). inversion A; inversion B; subst. unfold addUp in C. cbn in C. inversion C; subst.
      split; [exists y0, y1; auto|exists l', l'0; auto].
Qed.

Definition interstitialFree (b : box) : Prop := int b = (0, 1).
Definition sameAxes (b1 b2 : box) : Prop := length (gas b1) = length (gas b2).

(** The bounds on the vacancy axis before wrapping. *)
Definition vacFirst (b1 b2 : box) : Z := fst (vac b1) + fst (vac b2) - (snd (int b1) + snd (int b2) - 2).
Definition vacSecond (b1 b2 : box) : Z := snd (vac b1) + snd (vac b2) - 2 - (fst (int b1) + fst (int b2)).

Lemma vac_axis b1 b2 p n : fitsBox b1 -> fitsBox b2 -> fitsBox p -> 0 <= n <= 6 ->
  0 <= vacFirst b1 b2 + n ->
  axisGood (vac p) (u32 (vacFirst b1 b2 + n), u32 (vacSecond b1 b2 + n)) = true <->
  exists v1 v2 i1 i2 v, inside (vac b1) v1 /\ inside (vac b2) v2 /\ inside (int b1) i1 /\ inside (int b2) i2 /\
    inside (vac p) v /\ v - n = (v1 - i1) + (v2 - i2).
Proof.
  intros (_ & H1 & H2) (_ & H3 & H4) (_ & H5 & _) Hn Hf. unfold fits, vacFirst, vacSecond in *.
  unfold axisGood, inside. cbn [fst snd]. rewrite !u32_small by lia.
  rewrite andb_true_iff, !negb_true_iff, !Z.ltb_ge. split.
  - intros [HA HB].
    set (t := Z.max (fst (vac p)) (fst (vac b1) + fst (vac b2) - (snd (int b1) + snd (int b2) - 2) + n)).
    assert (Ht : fst (vac p) <= t < snd (vac p)) by lia.
    (* a net amount t - n between the extremes *)
    set (net := t - n).
    exists (Z.max (fst (vac b1)) (Z.min (snd (vac b1) - 1) (net - (fst (vac b2)) + (snd (int b1) - 1) + (snd (int b2) - 1)))).
    set (x := Z.max (fst (vac b1)) (Z.min (snd (vac b1) - 1) (net - (fst (vac b2)) + (snd (int b1) - 1) + (snd (int b2) - 1)))).
    exists (Z.max (fst (vac b2)) (Z.min (snd (vac b2) - 1) (net - x + (snd (int b1) - 1) + (snd (int b2) - 1)))).
    set (y := Z.max (fst (vac b2)) (Z.min (snd (vac b2) - 1) (net - x + (snd (int b1) - 1) + (snd (int b2) - 1)))).
    exists (Z.max (fst (int b1)) (Z.min (snd (int b1) - 1) (x + y - net - fst (int b2)))).
    set (i := Z.max (fst (int b1)) (Z.min (snd (int b1) - 1) (x + y - net - fst (int b2)))).
    exists (x + y - net - i), t. unfold i, y, x, net in *. lia.
  - intros (v1 & v2 & i1 & i2 & v & ?). lia.
Qed.

Lemma vacBounds_eq b1 b2 : fitsBox b1 -> fitsBox b2 ->
  vacBounds b1 b2 = (u32 (vacFirst b1 b2), u32 (vacSecond b1 b2)).
Proof.
  intros (_ & H1 & H2) (_ & H3 & H4). unfold fits, vacBounds, vacFirst, vacSecond in *.
  rewrite (@u32_small (fst (vac b1) + fst (vac b2))), (@u32_small (snd (int b1) + snd (int b2) - 2)),
    (@u32_small (snd (vac b1) + snd (vac b2) - 2)), (@u32_small (fst (int b1) + fst (int b2))) by lia. reflexivity.
Qed.

Lemma isGood_balanced b1 b2 p n : fitsBox b1 -> fitsBox b2 -> fitsBox p ->
  sameAxes b1 b2 -> sameAxes p b1 -> interstitialFree p -> 0 <= n <= 6 -> 0 <= vacFirst b1 b2 + n ->
  isGood (gasBounds b1 b2) (u32 (vacFirst b1 b2 + n), u32 (vacSecond b1 b2 + n)) p = true <-> balanced n b1 b2 p.
Proof.
  intros F1 F2 FP L1 L2 HI Hn Hf. unfold isGood. rewrite andb_true_iff.
  rewrite (@vac_axis b1 b2 p n) by assumption.
  destruct F1 as (G1 & F1). destruct F2 as (G2 & F2). destruct FP as (GP & FP).
  unfold gasBounds. rewrite gas_exists by assumption. unfold balanced, inBox. rewrite HI. split.
  - intros [(g1 & g2 & A & B & C) (v1 & v2 & i1 & i2 & v & D1 & D2 & D3 & D4 & D5 & D6)].
    exists g1, g2, v1, v2, i1, i2, v, 0.
    assert (H0 : inside (0, 1) 0) by (unfold inside; cbn; lia).
    repeat split; try assumption; try apply D1; try apply D2; try apply D3; try apply D4; try apply D5; try apply H0; lia.
  - intros (g1 & g2 & v1 & v2 & i1 & i2 & v & i & (A1 & A2 & A3) & (B1 & B2 & B3) & (C1 & C2 & C3) & E).
    unfold inside in C3. cbn [fst snd] in C3. split; [exists g1, g2; auto|]. exists v1, v2, i1, i2, v.
    do 5 (split; [assumption|]). lia.
Qed.

(** When the lower bound is negative: nothing is accepted. *)
Lemma accepts_wrap b1 b2 p : fitsBox b1 -> fitsBox b2 -> fitsBox p -> vacFirst b1 b2 < 0 -> accepts b1 b2 p = false.
Proof.
  intros F1 F2 FP H. unfold accepts, isGood. rewrite vacBounds_eq by assumption. apply andb_false_iff. right.
  destruct F1 as (_ & H1 & H2). destruct F2 as (_ & H3 & H4). destruct FP as (_ & H5 & _).
  unfold axisGood, fits, vacFirst in *. cbn [fst snd].
  rewrite (@u32_neg (fst (vac b1) + fst (vac b2) - (snd (int b1) + snd (int b2) - 2))) by lia.
  rewrite (@u32_small (snd (vac p) - 1)) by lia. apply andb_false_iff. right. apply negb_false_iff. apply Z.ltb_lt. lia.
Qed.
Lemma balanced_wrap b1 b2 p : fitsBox p -> interstitialFree p -> vacSecond b1 b2 < 0 -> ~ balanced 0 b1 b2 p.
Proof.
  intros (_ & HP & _) HI HS (g1 & g2 & v1 & v2 & i1 & i2 & v & i & (_ & A2 & A3) & (_ & B2 & B3) & (_ & C2 & C3) & E).
  rewrite HI in C3. unfold inside, fits, vacSecond in *. cbn [fst snd] in *. lia.
Qed.

(** ** Trap mutation. *)
Section TM.
Variable findI : Z -> option nat.
Variables (b1 b2 : box) (clusters : list box).
Hypothesis F1 : fitsBox b1.
Hypothesis F2 : fitsBox b2.
Hypothesis I1 : interstitialFree b1.
Hypothesis I2 : interstitialFree b2.

Lemma vacFirst_free : vacFirst b1 b2 = fst (vac b1) + fst (vac b2) /\ vacSecond b1 b2 = snd (vac b1) + snd (vac b2) - 2.
Proof. unfold vacFirst, vacSecond. rewrite I1, I2. cbn. lia. Qed.

Definition good (n : Z) (k : nat) : bool :=
  isGood (gasBounds b1 b2) (u32 (vacFirst b1 b2 + n), u32 (vacSecond b1 b2 + n)) (nth k clusters b1).

(** With every I_1 .. I_n present, the n-th round tests the bounds shifted by n. *)
Lemma tmLoop_spec fuel n :
  0 <= n -> n + Z.of_nat fuel <= 6 -> (forall m t, n < m -> findI m = Some t -> forall m', n < m' < m -> findI m' <> None) ->
  forall k t, In (k, t) (tmLoop findI b1 b2 clusters fuel (n + 1) (u32 (vacFirst b1 b2 + n), u32 (vacSecond b1 b2 + n))) <->
  exists m, n < m <= n + Z.of_nat fuel /\ findI m = Some t /\ good m k = true /\ (k < length clusters)%nat /\
    (forall m' k', n < m' < m -> (k' < length clusters)%nat -> good m' k' = false).
Proof.
  destruct vacFirst_free as [Ef Es]. pose proof F1 as (_ & V1 & _). pose proof F2 as (_ & V2 & _). unfold fits in V1, V2.
  revert n. induction fuel as [|fuel IH]; intros n Hn H6 Hc k t.
  - cbn. split; [tauto|]. intros (m & H & _). lia.
  - cbn [tmLoop]. destruct (findI (n + 1)) as [ic|] eqn:E.
    2:{ split.
      - intros H. exfalso.
        assert (G : forall fuel n0 vb, n + 1 <= n0 -> tmLoop findI b1 b2 clusters fuel n0 vb = []).
        { assert (HN : forall m, n + 1 <= m -> findI m = None).
          { intros m Hm. destruct (findI m) as [u|] eqn:Em; [|reflexivity]. exfalso.
            destruct (Z.eq_dec m (n + 1)) as [->|]; [congruence|]. apply (Hc m u) with (m' := n + 1); auto; lia. }
          induction fuel0 as [|f IHf]; intros n0 vb H0; [reflexivity|]. cbn. rewrite (HN n0) by lia. apply IHf. lia. }
        rewrite G in H by lia. destruct H.
      - intros (m & Hm & Em & _). exfalso. destruct (Z.eq_dec m (n + 1)) as [->|]; [congruence|].
        apply (Hc m t) with (m' := n + 1); auto; lia. }
    cbn [fst snd].
    replace (u32 (u32 (vacFirst b1 b2 + n) + 1)) with (u32 (vacFirst b1 b2 + (n + 1))).
    2:{ rewrite (@u32_small (vacFirst b1 b2 + n)) by lia. f_equal. lia. }
    replace (u32 (u32 (vacSecond b1 b2 + n) + 1)) with (u32 (vacSecond b1 b2 + (n + 1))).
    2:{ rewrite (@u32_small (vacSecond b1 b2 + n)) by lia. f_equal. lia. }
    change (fun k0 => isGood (gasBounds b1 b2) (u32 (vacFirst b1 b2 + (n + 1)), u32 (vacSecond b1 b2 + (n + 1))) (nth k0 clusters b1)) with (good (n + 1)).
    remember (filter (good (n + 1)) (seq 0 (length clusters))) as ks eqn:Ek.
    assert (HK : forall k0, In k0 ks <-> (k0 < length clusters)%nat /\ good (n + 1) k0 = true).
    { intros k0. rewrite Ek, filter_In, in_seq. intuition lia. }
    destruct ks as [|k0 ks].
    + replace (n + 1 + 1) with ((n + 1) + 1) by lia. rewrite IH; [|lia|lia|].
      2:{ intros m u Hm Em m' Hm'. apply (Hc m u); auto; lia. }
      split.
      * intros (m & Hm & Em & Hg & Hk & Hl). exists m. repeat split; auto; try lia.
        intros m' k' Hm' Hk'. destruct (Z.eq_dec m' (n + 1)) as [->|]; [|apply Hl; auto; lia].
        destruct (good (n + 1) k') eqn:Eg; [|reflexivity]. exfalso. apply (HK k'). auto.
      * intros (m & Hm & Em & Hg & Hk & Hl). exists m.
        assert (m <> n + 1). { intros ->. apply (HK k). auto. }
        repeat split; auto; try lia. intros m' k' Hm' Hk'. apply Hl; auto; lia.
    + rewrite in_map_iff. split.
      * intros (k' & [= -> ->] & Hin). exists (n + 1). apply HK in Hin. destruct Hin. repeat split; auto; intros; lia.
      * intros (m & Hm & Em & Hg & Hk & Hl). assert (m = n + 1).
        { destruct (Z.eq_dec m (n + 1)); [assumption|exfalso]. assert (H0 : In k0 (k0 :: ks)) by (left; reflexivity).
          apply HK in H0 as [H0 H1]. rewrite (Hl (n + 1) k0) in H1; [discriminate|lia|exact H0]. }
        subst m. exists k. split; [congruence|]. apply HK. auto.
Qed.
End TM.
