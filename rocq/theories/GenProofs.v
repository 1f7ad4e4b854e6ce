From Coq Require Import Sorted.
From Verif Require Export GenModel.
Set Implicit Arguments.
Open Scope Z_scope.

(** ** Integer ranges. *)
Lemma range_In a b x : In x (range a b) <-> a <= x <= b.
Proof.
  unfold range. rewrite in_map_iff. split.
  - intros (n & <- & Hn). apply in_seq in Hn. lia.
  - intros H. exists (Z.to_nat (x - a)). split; [lia|]. apply in_seq. lia.
Qed.
Lemma range_sorted a b : StronglySorted Z.lt (range a b).
Proof.
  unfold range. generalize (Z.to_nat (b - a + 1)). intros n.
  assert (G : forall m k, StronglySorted Z.lt (map (fun n => a + Z.of_nat n) (seq k m))).
  { induction m as [|m IH]; intros k; cbn; constructor; [apply IH|]. apply Forall_forall. intros x Hx.
    apply in_map_iff in Hx as (q & <- & Hq). apply in_seq in Hq. lia. }
  apply G.
Qed.

(** ** De-duplication. *)
Fixpoint contig (l : list look) : Prop :=
  match l with
  | [] => True
  | Look None :: l' => contig l'
  | Nothing :: l' => ~ In Nothing l' /\ contig l'
  | Look (Some t) :: l' =>
      (forall l1 x l2, l' = l1 ++ Look (Some x) :: l2 -> In (Look (Some t)) l2 -> x = t) /\ contig l'
  end.
Lemma contig_drop p a l : contig (Look (Some p) :: a :: l) -> contig (Look (Some p) :: l).
Proof.
  intros [H1 H2]. split.
  - intros l1 x l2 E. apply (H1 (a :: l1) x l2). rewrite E. reflexivity.
  - destruct a as [[t|]|]; cbn in H2; tauto.
Qed.
Lemma dedupe_sound l prev t : In (Some t) (dedupe prev l) -> In (Look (Some t)) l.
Proof.
  revert prev. induction l as [|[[x|]|] l IH]; intros prev; cbn [dedupe]; auto.
  - destruct (match prev with Some p => _ | None => _ end); [right; eauto|].
    intros [[= ->]|H]; [left; reflexivity|right; eauto].
  - right; eauto.
  - intros [?|H]; [discriminate|right; eauto].
Qed.
Lemma dedupe_complete l prev t : In (Look (Some t)) l -> In (Some t) (dedupe prev l) \/ prev = Some t.
Proof.
  revert prev. induction l as [|[[x|]|] l IH]; intros prev H; cbn [dedupe]; [destruct H| | |].
  - destruct H as [[= ->]|H].
    + destruct prev as [p|]; [|left; left; reflexivity].
      destruct (Nat.eqb_spec t p) as [->|]; [right; reflexivity|left; left; reflexivity].
    + destruct prev as [p|]; [destruct (Nat.eqb_spec x p) as [->|]|].
      * apply IH; exact H.
      * destruct (IH (Some x) H) as [|[= ->]]; left; [right|left]; auto.
      * destruct (IH (Some x) H) as [|[= ->]]; left; [right|left]; auto.
  - destruct H as [?|H]; [discriminate|]. apply IH; exact H.
  - destruct H as [?|H]; [discriminate|]. destruct (IH prev H); [left; right|right]; auto.
Qed.
Lemma dedupe_None l prev : In None (dedupe prev l) <-> In Nothing l.
Proof.
  revert prev. induction l as [|[[x|]|] l IH]; intros prev; cbn [dedupe]; [tauto| | |].
  - destruct (match prev with Some p => _ | None => _ end); cbn [In]; rewrite ?IH; intuition discriminate.
  - cbn [In]. rewrite IH. intuition discriminate.
  - cbn [In]. rewrite IH. intuition.
Qed.
Lemma dedupe_NoDup_prev l p : contig (Look (Some p) :: l) -> NoDup (dedupe (Some p) l) /\ ~ In (Some p) (dedupe (Some p) l).
Proof.
  revert p. induction l as [|[[x|]|] l IH]; intros p H; cbn [dedupe].
  - split; [constructor|tauto].
  - destruct (Nat.eqb_spec x p) as [->|Hx]; [apply IH; apply contig_drop in H; exact H|].
    destruct H as [H1 H2]. destruct (IH x H2) as [ND NI]. split; [constructor; auto|].
    intros [[= ->]|Hin]; [congruence|]. apply Hx. apply (H1 [] x l); [reflexivity|]. eapply dedupe_sound; eauto.
  - apply IH. apply contig_drop in H. exact H.
  - assert (H' := contig_drop H). destruct (IH _ H') as [ND NI]. destruct H as [_ [HN _]]. split.
    + constructor; [rewrite dedupe_None; exact HN|exact ND].
    + intros [?|Hin]; [discriminate|]. contradiction.
Qed.
Lemma dedupe_NoDup l : contig l -> NoDup (dedupe None l).
Proof.
  induction l as [|[[x|]|] l IH]; intros H; cbn [dedupe].
  - constructor.
  - destruct (dedupe_NoDup_prev H). constructor; auto.
  - apply IH. exact H.
  - destruct H as [HN H]. constructor; [rewrite dedupe_None; exact HN|apply IH; exact H].
Qed.
Lemma dedupe_spec l : contig l -> NoDup (dedupe None l) /\
  (forall t, In (Some t) (dedupe None l) <-> In (Look (Some t)) l) /\ (In None (dedupe None l) <-> In Nothing l).
Proof.
  intros H. split; [apply dedupe_NoDup; exact H|]. split; [|apply dedupe_None].
  intros t. split; [apply dedupe_sound|]. intros Hin. destruct (dedupe_complete l None t Hin); [assumption|discriminate].
Qed.

(** Lookups along an ordered list of positions. *)
Section ALONG.
Variables (A : Type) (lt : A -> A -> Prop) (g : A -> look).
Definition convexOn (l : list A) : Prop :=
  (forall a b c t x, In a l -> In b l -> In c l -> lt a b -> lt b c -> g a = Look (Some t) -> g c = Look (Some t) -> g b = Look (Some x) -> x = t) /\
  (forall a b, In a l -> In b l -> lt a b -> g a = Nothing -> g b = Nothing -> False).
Lemma convex_contig l : StronglySorted lt l -> convexOn l -> contig (map g l).
Proof.
  induction l as [|a l IH]; intros HS [H1 H2]; [exact I|].
  inversion HS as [|? ? HS' HF]; subst. rewrite Forall_forall in HF.
  assert (IHl : contig (map g l)).
  { apply IH; [exact HS'|]. split; intros; [eapply (H1 a0 b c)|eapply (H2 a0 b)]; try right; eauto. }
  cbn [map]. destruct (g a) as [[t|]|] eqn:Ea; cbn [contig]; [|exact IHl|].
  - split; [|exact IHl]. intros l1 x l2 E Hin.
    apply map_eq_app in E as (m1 & m2 & -> & E1 & E2). destruct m2 as [|b m2]; [discriminate|].
    injection E2 as Eb E2. subst l2. apply in_map_iff in Hin as (c & Ec & Hc).
    assert (Hb : In b (m1 ++ b :: m2)) by (apply in_app_iff; right; left; reflexivity).
    assert (Hc' : In c (m1 ++ b :: m2)) by (apply in_app_iff; right; right; exact Hc).
    apply (H1 a b c t x); auto; try (left; reflexivity); try (right; assumption).
    clear -HS' Hc. induction m1 as [|y m1 IHm]; cbn in HS'; inversion HS'; subst.
    + rewrite Forall_forall in *. auto.
    + apply IHm. assumption.
  - split; [|exact IHl]. intros Hin. apply in_map_iff in Hin as (b & Eb & Hb).
    apply (H2 a b); auto; [left; reflexivity|right; exact Hb].
Qed.
End ALONG.

(** ** Tiles of one species axis. *)
Definition tiling (find : Z -> option nat) (lo hi : nat -> Z) : Prop :=
  forall k t, 0 < k -> find k = Some t ->
    0 <= lo t <= k /\ k < hi t /\ forall k', 0 < k' -> lo t <= k' < hi t -> find k' = Some t.
Definition apart (f g : Z -> option nat) : Prop := forall a b t u, 0 < a -> 0 < b -> f a = Some t -> g b = Some u -> t <> u.

Lemma tiling_convex find lo hi a b c t : tiling find lo hi -> 0 < a -> a < b < c ->
  find a = Some t -> find c = Some t -> find b = Some t.
Proof.
  intros T Ha Hb Ea Ec. destruct (T a t Ha Ea) as (H1 & H2 & H3). destruct (T c t ltac:(lia) Ec) as (H4 & H5 & _).
  apply H3; lia.
Qed.

Lemma zr_convex findV findI loV hiV loI hiI l : tiling findV loV hiV -> tiling findI loI hiI -> apart findV findI ->
  convexOn Z.lt (zrLook findV findI) l.
Proof.
  intros TV TI AP. unfold zrLook. split.
  - intros a b c t x _ _ _ Hab Hbc.
    destruct (Z.ltb_spec 0 a), (Z.ltb_spec a 0), (Z.ltb_spec 0 b), (Z.ltb_spec b 0), (Z.ltb_spec 0 c), (Z.ltb_spec c 0);
      try lia; try discriminate; intros [= E1] [= E3] [= E2]; try (exfalso; eapply AP; [| |eassumption|eassumption|reflexivity]; lia).
    + assert (findV b = Some t) by (apply (@tiling_convex findV loV hiV a b c t TV); auto; lia). congruence.
    + exfalso. apply (AP c (-a) t t); auto; lia.
    + exfalso. apply (AP c (-a) t t); auto; lia.
    + assert (findI (-b) = Some t) by (apply (@tiling_convex findI loI hiI (-c) (-b) (-a) t TI); auto; lia). congruence.
  - intros a b _ _ Hab. destruct (Z.ltb_spec 0 a), (Z.ltb_spec a 0), (Z.ltb_spec 0 b), (Z.ltb_spec b 0);
      try lia; try discriminate.
Qed.

Lemma zrB_convex findV findI findB loV hiV loI hiI loB hiB l : tiling findV loV hiV -> tiling findI loI hiI ->
  tiling findB loB hiB -> apart findV findI -> apart findB findI -> apart findB findV ->
  convexOn Z.lt (zrBasalLook findV findI findB) l.
Proof.
  intros TV TI TB A1 A2 A3. destruct (@zr_convex findV findI loV hiV loI hiI l TV TI A1) as [C1 C2].
  unfold zrBasalLook. split.
  - intros a b c t x Ia Ib Ic Hab Hbc. specialize (C1 a b c t x Ia Ib Ic Hab Hbc).
    destruct (Z.ltb_spec 9 a), (Z.ltb_spec 9 b), (Z.ltb_spec 9 c); try lia; auto.
    + intros [= E1] [= E3] [= E2]. assert (findB b = Some t) by (apply (@tiling_convex findB loB hiB a b c t TB); auto; lia). congruence.
    + intros E1 [= E3] [= E2]. exfalso. unfold zrLook in E1.
      destruct (Z.ltb_spec 0 a); [injection E1 as E1; apply (A3 c a t t); auto; lia|].
      destruct (Z.ltb_spec a 0); [injection E1 as E1; apply (A2 c (-a) t t); auto; lia|discriminate].
    + intros E1 [= E3] E2. exfalso. unfold zrLook in E1.
      destruct (Z.ltb_spec 0 a); [injection E1 as E1; apply (A3 c a t t); auto; lia|].
      destruct (Z.ltb_spec a 0); [injection E1 as E1; apply (A2 c (-a) t t); auto; lia|discriminate].
  - intros a b Ia Ib Hab. specialize (C2 a b Ia Ib Hab).
    destruct (Z.ltb_spec 9 a), (Z.ltb_spec 9 b); try lia; auto; discriminate.
Qed.

(** Alloy: two lookups per size. The interstitials are not larger than [m], the
    loops not smaller than [m] (AlloyClusterGenerator::select). *)
Definition lex (p q : Z * nat) : Prop := fst p < fst q \/ (fst p = fst q /\ (snd p < snd q)%nat).
Definition two (look1 look2 : Z -> look) (p : Z * nat) : look :=
  match snd p with O => look1 (fst p) | _ => look2 (fst p) end.
Definition positions (l : list Z) : list (Z * nat) := flat_map (fun k => [(k, 0%nat); (k, 1%nat)]) l.
Lemma positions_sorted l : StronglySorted Z.lt l -> StronglySorted lex (positions l).
Proof.
  induction 1 as [|a l HS IH HF]; cbn; [constructor|]. rewrite Forall_forall in HF.
  assert (HL : forall p, In p (positions l) -> fst p > a).
  { intros p Hp. unfold positions in Hp. apply in_flat_map in Hp as (k & Hk & [<-|[<-|[]]]); apply HF in Hk; cbn; lia. }
  constructor; [constructor; [exact IH|]|]; rewrite Forall_forall.
  - intros p Hp. apply HL in Hp. left. cbn. lia.
  - intros p [<-|Hp]; [right; cbn; lia|]. apply HL in Hp. left. cbn. lia.
Qed.
Lemma dedupe_skip prev l1 l2 : (forall p, dedupe p l1 = dedupe p l2) -> dedupe prev (Look None :: l1) = dedupe prev l2.
Proof. intros H. cbn. apply H. Qed.
Lemma dedupe_cons a l1 l2 : (forall p, dedupe p l1 = dedupe p l2) -> forall p, dedupe p (a :: l1) = dedupe p (a :: l2).
Proof.
  intros H p. destruct a as [[t|]|]; cbn; [|apply H|f_equal; apply H].
  destruct (match p with Some q => _ | None => _ end); [apply H|f_equal; apply H].
Qed.

Lemma alloy_flat findV findI findP v l p :
  dedupe p (flat_map (fun k => alloyLook findV findI findP (k - v)) l) =
  dedupe p (map (two (fun k => if 0 <? k - v then Look (findI (k - v)) else if k - v <? 0 then Look (findV (- (k - v))) else Nothing)
                     (fun k => if 0 <? k - v then Look (findP (k - v)) else Look None)) (positions l)).
Proof.
  revert p. induction l as [|k l IH]; intros p; [reflexivity|]. cbn [flat_map positions map app]. unfold two at 1 2. cbn [fst snd].
  unfold alloyLook. destruct (0 <? k - v).
  - cbn [app]. apply dedupe_cons. apply dedupe_cons. exact IH.
  - destruct (k - v <? 0); cbn [app]; apply dedupe_cons; intros q; cbn [dedupe]; apply IH.
Qed.
Lemma two_flat l1 l2 ks t : In (Look (Some t)) (map (two l1 l2) (positions ks)) <->
  exists k, In k ks /\ (l1 k = Look (Some t) \/ l2 k = Look (Some t)).
Proof.
  unfold positions. rewrite in_map_iff. split.
  - intros ([k n] & E & H). apply in_flat_map in H as (k' & Hk & H). exists k'. split; [exact Hk|].
    destruct H as [[= <- <-]|[[= <- <-]|[]]]; cbn in E; auto.
  - intros (k & Hk & [E|E]); [exists (k, 0%nat)|exists (k, 1%nat)]; cbn; (split; [exact E|]);
      apply in_flat_map; exists k; (split; [exact Hk|]); cbn; auto.
Qed.
Lemma two_flat_N l1 l2 ks : In Nothing (map (two l1 l2) (positions ks)) <->
  exists k, In k ks /\ (l1 k = Nothing \/ l2 k = Nothing).
Proof.
  unfold positions. rewrite in_map_iff. split.
  - intros ([k n] & E & H). apply in_flat_map in H as (k' & Hk & H). exists k'. split; [exact Hk|].
    destruct H as [[= <- <-]|[[= <- <-]|[]]]; cbn in E; auto.
  - intros (k & Hk & [E|E]); [exists (k, 0%nat)|exists (k, 1%nat)]; cbn; (split; [exact E|]);
      apply in_flat_map; exists k; (split; [exact Hk|]); cbn; auto.
Qed.

Lemma alloy_convex findV findI findP loV hiV loI hiI loP hiP v m l :
  tiling findV loV hiV -> tiling findI loI hiI -> tiling findP loP hiP ->
  apart findV findI -> apart findV findP -> apart findI findP ->
  (forall k t, findI k = Some t -> k <= m) -> (forall k t, findP k = Some t -> m <= k) ->
  convexOn lex (two (fun k => if 0 <? k - v then Look (findI (k - v)) else if k - v <? 0 then Look (findV (- (k - v))) else Nothing)
                     (fun k => if 0 <? k - v then Look (findP (k - v)) else Look None)) l.
Proof.
  intros TV TI TP A1 A2 A3 HI HP. unfold two, lex. split.
  - intros [a na] [b nb] [c nc] t x _ _ _. cbn [fst snd]. intros Hab Hbc.
    assert (Lab : a <= b) by lia. assert (Lbc : b <= c) by lia.
    destruct (Z.ltb_spec 0 (a - v)) as [Pa|Pa], (Z.ltb_spec 0 (b - v)) as [Pb|Pb], (Z.ltb_spec 0 (c - v)) as [Pc|Pc]; try lia.
    + destruct na as [|na], nb as [|nb], nc as [|nc]; intros [= Ea] [= Ec] [= Eb];
        try solve [exfalso; apply (A3 (a - v) (c - v) t t); auto; lia|exfalso; apply (A3 (c - v) (a - v) t t); auto; lia].
      * assert (a < b) by lia. assert (b < c) by lia.
        assert (findI (b - v) = Some t) by (apply (@tiling_convex findI loI hiI (a - v) (b - v) (c - v) t TI); auto; lia). congruence.
      * apply HP in Eb. apply HI in Ec. lia.
      * apply HP in Ea. apply HI in Eb. lia.
      * destruct (Z.eq_dec (a - v) (b - v)) as [E|]; [rewrite E in *; congruence|].
        destruct (Z.eq_dec (b - v) (c - v)) as [E|]; [rewrite E in *; congruence|].
        assert (findP (b - v) = Some t) by (apply (@tiling_convex findP loP hiP (a - v) (b - v) (c - v) t TP); auto; lia). congruence.
    + destruct na as [|na]; [|discriminate]. destruct (Z.ltb_spec (a - v) 0) as [Na|]; [|discriminate].
      intros [= Ea]. destruct nc as [|nc]; intros [= Ec] _; exfalso.
      * apply (A1 (- (a - v)) (c - v) t t); auto; lia.
      * apply (A2 (- (a - v)) (c - v) t t); auto; lia.
    + destruct na as [|na]; [|discriminate]. destruct (Z.ltb_spec (a - v) 0) as [Na|]; [|discriminate].
      intros [= Ea]. destruct nc as [|nc]; intros [= Ec] _; exfalso.
      * apply (A1 (- (a - v)) (c - v) t t); auto; lia.
      * apply (A2 (- (a - v)) (c - v) t t); auto; lia.
    + destruct na as [|na]; [|discriminate]. destruct nb as [|nb]; [|discriminate]. destruct nc as [|nc]; [|discriminate].
      destruct (Z.ltb_spec (a - v) 0); [|discriminate]. destruct (Z.ltb_spec (b - v) 0); [|discriminate].
      destruct (Z.ltb_spec (c - v) 0); [|discriminate]. intros [= Ea] [= Ec] [= Eb].
      assert (a < b) by lia. assert (b < c) by lia.
      assert (findV (- (b - v)) = Some t) by (apply (@tiling_convex findV loV hiV (- (c - v)) (- (b - v)) (- (a - v)) t TV); auto; lia). congruence.
  - intros [a na] [b nb] _ _. cbn [fst snd]. intros Hab.
    destruct na as [|na], nb as [|nb];
      destruct (Z.ltb_spec 0 (a - v)), (Z.ltb_spec 0 (b - v)), (Z.ltb_spec (a - v) 0), (Z.ltb_spec (b - v) 0); try discriminate; lia.
Qed.

(** ** PSI: the loop with bounds is the same list. *)
Section PSIEQ.
Variables findV findI : Z -> option nat.
Variables loV hiV loI hiI : nat -> Z.
Hypothesis TV : tiling findV loV hiV.
Hypothesis TI : tiling findI loI hiI.
Hypothesis AP : apart findV findI.

Definition agree (pb : Z * Z) (prev : option nat) (l : list Z) : Prop :=
  (forall s, In s l -> s <> 0 -> (inRange s pb = true <-> exists t, prev = Some t /\ zrLook findV findI s = Look (Some t))) /\
  (In 0 l -> snd pb <= 0).

Lemma ivLoop_dedupe l : StronglySorted Z.lt l -> forall pb prev, agree pb prev l ->
  ivLoop findV findI loV hiV loI hiI pb l = dedupe prev (map (zrLook findV findI) l).
Proof.
  induction 1 as [|s l HS IH HF]; intros pb prev [HA HZ]; [reflexivity|]. rewrite Forall_forall in HF.
  assert (Tail : agree pb prev l).
  { split; [intros; apply HA; [right|]; assumption|intros; apply HZ; right; assumption]. }
  cbn [ivLoop map]. unfold ivStep. destruct (Z.eq_dec s 0) as [->|Hs].
  - rewrite andb_false_r. change (0 <? 0) with false. change (zrLook findV findI 0) with Nothing. cbn [app dedupe]. f_equal.
    apply IH. split; [|intros; cbn; lia]. intros s' Hin Hs'. pose proof (HF _ Hin) as Hlt.
    destruct Tail as [TA _]. split.
    + unfold inRange. cbn [fst snd]. lia.
    + intros Hex. apply TA in Hex; auto. unfold inRange in Hex. pose proof (HZ (or_introl eq_refl)). lia.
  - pose proof (HA s (or_introl eq_refl) Hs) as Hsk.
    destruct (inRange s pb) eqn:Er; cbn [andb].
    + replace (negb (s =? 0)) with true by (symmetry; apply negb_true_iff; apply Z.eqb_neq; exact Hs).
      destruct Hsk as [Hsk _]. destruct (Hsk eq_refl) as (t & -> & ->). cbn [app dedupe]. rewrite Nat.eqb_refl. apply IH. exact Tail.
    + assert (Hne : forall t, zrLook findV findI s = Look (Some t) -> prev <> Some t).
      { intros t E Ep. destruct Hsk as [_ Hsk]. discriminate Hsk. eauto. }
      clear Hsk. unfold zrLook in *. destruct (Z.ltb_spec 0 s) as [Hp|Hp].
      * destruct (findV s) as [t|] eqn:E; cbn [app dedupe]; [|apply IH; exact Tail].
        replace (match prev with Some p => Nat.eqb t p | None => false end) with false.
        2:{ symmetry. destruct prev as [p|]; [|reflexivity]. apply Nat.eqb_neq. intros ->. apply (Hne p); reflexivity. }
        f_equal. apply IH. destruct (TV Hp E) as (L1 & L2 & L3). split.
        -- intros s' Hin Hs'. pose proof (HF _ Hin) as Hlt. unfold inRange, zrLook. cbn [fst snd].
           destruct (Z.ltb_spec 0 s'); [|lia]. split.
           ++ intros Hr. exists t. split; [reflexivity|]. f_equal. apply L3; lia.
           ++ intros (u & [= <-] & [= E']). destruct (@TV s' t ltac:(lia) E') as (M1 & M2 & _). lia.
        -- intros H0. apply HF in H0. lia.
      * destruct (Z.ltb_spec s 0) as [Hn|]; [|lia].
        destruct (findI (- s)) as [t|] eqn:E; cbn [app dedupe]; [|apply IH; exact Tail].
        replace (match prev with Some p => Nat.eqb t p | None => false end) with false.
        2:{ symmetry. destruct prev as [p|]; [|reflexivity]. apply Nat.eqb_neq. intros ->. apply (Hne p); reflexivity. }
        f_equal. apply IH. destruct (@TI (- s) t ltac:(lia) E) as (L1 & L2 & L3). split.
        -- intros s' Hin Hs'. pose proof (HF _ Hin) as Hlt. unfold inRange, zrLook. cbn [fst snd].
           destruct (Z.ltb_spec 0 s') as [Hp'|Hp'].
           ++ split; [lia|]. intros (u & [= <-] & [= E']). exfalso. apply (AP (a := s') (b := - s) (t := t) (u := t)); auto; lia.
           ++ destruct (Z.ltb_spec s' 0); [|lia]. split.
              ** intros Hr. exists t. split; [reflexivity|]. f_equal. apply L3; lia.
              ** intros (u & [= <-] & [= E']). destruct (@TI (- s') t ltac:(lia) E') as (M1 & M2 & _). lia.
        -- intros _. cbn. lia.
Qed.
Lemma psiIV_zr vb ve ib ie : psiIV findV findI loV hiV loI hiI vb ve ib ie = zrIV findV findI vb ve ib ie.
Proof.
  unfold psiIV, zrIV. apply ivLoop_dedupe; [apply range_sorted|]. split; [|cbn; lia].
  intros s _ Hs. unfold inRange. cbn [fst snd]. split; [lia|]. intros (t & H & _). discriminate.
Qed.

Lemma iiLoop_dedupe l : StronglySorted Z.lt l -> (forall s, In s l -> 0 < s) -> forall pb prev,
  (forall s, In s l -> (inRange s pb = true <-> exists t, prev = Some t /\ findI s = Some t)) ->
  map Some (iiLoop findI loI hiI pb l) = dedupe prev (map (fun s => Look (findI s)) l).
Proof.
  induction 1 as [|s l HS IH HF]; intros Hpos pb prev HA; [reflexivity|]. rewrite Forall_forall in HF.
  assert (Tail : forall s, In s l -> (inRange s pb = true <-> exists t, prev = Some t /\ findI s = Some t)) by (intros; apply HA; right; assumption).
  assert (Hpos' : forall s, In s l -> 0 < s) by (intros; apply Hpos; right; assumption).
  cbn [iiLoop map]. unfold iiStep. pose proof (HA s (or_introl eq_refl)) as Hsk.
  pose proof (Hpos s (or_introl eq_refl)) as Hs.
  destruct (inRange s pb) eqn:Er.
  - destruct Hsk as [Hsk _]. destruct (Hsk eq_refl) as (t & -> & ->). cbn [app dedupe map]. rewrite Nat.eqb_refl. apply IH; assumption.
  - destruct (findI s) as [t|] eqn:E; cbn [app dedupe map]; [|apply IH; assumption].
    replace (match prev with Some p => Nat.eqb t p | None => false end) with false.
    2:{ symmetry. destruct prev as [p|]; [|reflexivity]. apply Nat.eqb_neq. intros ->. destruct Hsk as [_ Hsk]. discriminate Hsk. eauto. }
    f_equal. apply IH; [exact Hpos'|]. intros s' Hin. pose proof (Hpos' _ Hin). destruct (TI Hs E) as (L1 & L2 & L3).
    unfold inRange. cbn [fst snd]. split.
    + intros Hr. exists t. split; [reflexivity|]. apply L3; lia.
    + intros (u & [= <-] & E'). destruct (@TI s' t ltac:(lia) E') as (M1 & M2 & _). lia.
Qed.
End PSIEQ.
