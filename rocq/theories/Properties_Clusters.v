(** C58 for the NE, Fe, Zr and Alloy networks. *)
From Coq Require Import List ZArith Lia Bool.
From Verif Require Import GenModel SelectModel.
Import ListNotations.
Open Scope Z_scope.
Ltac decide_all := repeat (cbn [andb orb negb]; match goal with
  | |- context [?a <? ?b] => first [rewrite (proj2 (Z.ltb_lt a b)) by lia | rewrite (proj2 (Z.ltb_ge a b)) by lia | destruct (Z.ltb_spec a b)]
  | |- context [?a <=? ?b] => first [rewrite (proj2 (Z.leb_le a b)) by lia | rewrite (proj2 (Z.leb_gt a b)) by lia | destruct (Z.leb_spec a b)]
  | |- context [?a =? ?b] => first [rewrite (proj2 (Z.eqb_eq a b)) by lia | rewrite (proj2 (Z.eqb_neq a b)) by lia | destruct (Z.eqb_spec a b)]
  end); cbn [andb orb negb].
Definition inIv (x : Z) (i : iv) : Prop := ib i <= x < ie i.
Definition one_ (x : Z) : iv := Iv x (x + 1).

(** *** NE (fuel): xenon, vacancies, interstitials *)
Definition inside3 (g v i : Z) (r : reg3) : Prop := inIv g (rG r) /\ inIv v (rV r) /\ inIv i (rI r).
Definition start3 (r : reg3) : Prop := 0 <= ib (rG r) /\ 0 <= ib (rV r) /\ 0 <= ib (rI r).
(** Single interstitials and their clusters; one xenon; one or two vacancies; xenon with vacancies up to both limits, the
    single xenon with at most eight. *)
Inductive neAdmissible (maxXe maxV : Z) : Z -> Z -> Z -> Prop :=
| neI i : 0 < i -> neAdmissible maxXe maxV 0 0 i
| neXe : 1 <= maxXe -> neAdmissible maxXe maxV 1 0 0
| neV v : 1 <= v <= 2 -> v <= maxV -> neAdmissible maxXe maxV 0 v 0
| neXeV x v : 1 <= x <= maxXe -> 1 <= v <= maxV -> (x = 1 -> v <= 8) -> neAdmissible maxXe maxV x v 0.
Theorem c58_ne maxXe maxV g v i : 0 <= maxXe -> 0 <= maxV -> 0 <= g -> 0 <= v -> 0 <= i ->
  (neSelect maxXe maxV (Reg3 (one_ g) (one_ v) (one_ i)) = true <-> neAdmissible maxXe maxV g v i).
Proof.
  intros. unfold neSelect, one_. cbn [rG rV rI ib ie]. split.
  - decide_all; intros X; try discriminate X.
    all: destruct (Z.eq_dec i 0) as [->|]; [|assert (g = 0) by lia; assert (v = 0) by lia; subst; constructor; lia].
    all: destruct (Z.eq_dec g 0) as [->|]; [constructor; lia|]; destruct (Z.eq_dec v 0) as [->|]; [assert (g = 1) by lia; subst; constructor; lia|apply neXeV; lia].
  - intros X. inversion X; subst; decide_all; try reflexivity; lia.
Qed.
(** Nothing asked for is lost in a group when grouping starts at nine or later (plsm cuts the xenon axis at multiples of
    the length of the pieces) ... *)
Definition finishedNE maxXe maxV gMin wXe wV (r : reg3) : Prop :=
  let '(g, v, i) := neRefine maxXe maxV gMin wXe wV r in
  (g = true -> len (rG r) = 1) /\ (v = true -> len (rV r) = 1) /\ (i = true -> len (rI r) = 1).
Theorem c58_ne_no_loss_partial maxXe maxV gMin wXe wV r g v i : 0 <= maxXe -> 0 <= maxV -> 9 <= gMin -> start3 r -> (len (rG r) | ib (rG r)) -> finishedNE maxXe maxV gMin wXe wV r -> inside3 g v i r ->
  neAdmissible maxXe maxV g v i -> neSelect maxXe maxV r = true.
Proof.
  intros HX HV Hg Hs Hd Hf Hi Ha. destruct r as [[g0 g1] [v0 v1] [i0 i1]]. unfold inside3, inIv, start3, finishedNE in *. cbn [rG rV rI ib ie] in *.
  unfold neSelect. cbn [rG rV rI ib ie].
  assert (K : g0 = 1 -> i = 0 -> v0 <= 8 -> v1 = v0 + 1).
  { intros -> -> Hv. assert (i0 = 0) by lia. subst i0. revert Hf. unfold neRefine. cbn [rG rV rI ib ie]. unfold len; cbn [ib ie].
    change (0 <? 0) with false. cbv iota. repeat match goal with |- context [if ?b then (true, true, true) else _] => destruct b eqn:?; [intros (_ & X & _); specialize (X eq_refl); lia|] end.
    exfalso. rewrite (proj2 (Z.ltb_lt 1 gMin)), (proj2 (Z.ltb_lt v0 gMin)) in * by lia. discriminate. }
  assert (D : g0 = 1 -> g1 = 2). { intros ->. unfold len in Hd. cbn [ib ie] in Hd. pose proof (Z.divide_1_r_nonneg (g1 - 1) ltac:(lia) Hd). lia. }
  inversion Ha; subst; decide_all; try reflexivity; try lia.
Qed.
(** ... but below, a group of one xenon with vacancies around eight is left out altogether: no cut, no cluster, although
    one xenon with eight vacancies is asked for. *)
Theorem c58_ne_no_loss_refuted : exists r, start3 r /\ (len (rG r) | ib (rG r)) /\ finishedNE 20 20 4 4 4 r /\ inside3 1 8 0 r /\ neAdmissible 20 20 1 8 0 /\ neSelect 20 20 r = false.
Proof.
  exists (Reg3 (Iv 1 2) (Iv 8 12) (Iv 0 1)). split; [unfold start3; cbn; lia|]. split; [exists 1; reflexivity|]. split; [cbn; repeat split; discriminate|].
  split; [unfold inside3, inIv; cbn; lia|]. split; [apply neXeV; lia|reflexivity].
Qed.
Example c58_ne_ok : (len (Iv 12 16) | 12) /\ neAdmissible 20 20 12 15 0 /\ finishedNE 20 20 10 4 4 (Reg3 (Iv 12 16) (Iv 12 16) (Iv 0 1)) /\ inside3 12 15 0 (Reg3 (Iv 12 16) (Iv 12 16) (Iv 0 1)).
Proof. split; [exists 3; reflexivity|]. split; [apply neXeV; lia|]. split; [cbn; repeat split; discriminate|unfold inside3, inIv; cbn; lia]. Qed.

(** *** Fe: helium, vacancies, interstitials *)
Inductive feAdmissible (maxHe maxV : Z) : Z -> Z -> Z -> Prop :=
| feI i : 0 < i -> feAdmissible maxHe maxV 0 0 i
| feHe he : 1 <= he <= 8 -> he <= maxHe -> feAdmissible maxHe maxV he 0 0
| feV v : 1 <= v <= 10 -> v <= maxV -> feAdmissible maxHe maxV 0 v 0
| feHeV he v : 1 <= he <= maxHe -> 1 <= v <= maxV -> feAdmissible maxHe maxV he v 0.
Theorem c58_fe maxHe maxV g v i : 0 <= maxHe -> 0 <= maxV -> 0 <= g -> 0 <= v -> 0 <= i ->
  (feSelect maxHe maxV (Reg3 (one_ g) (one_ v) (one_ i)) = true <-> feAdmissible maxHe maxV g v i).
Proof.
  intros. unfold feSelect, one_. cbn [rG rV rI ib ie]. split.
  - decide_all; intros X; try discriminate X.
    all: destruct (Z.eq_dec i 0) as [->|]; [|assert (g = 0) by lia; assert (v = 0) by lia; subst; constructor; lia].
    all: destruct (Z.eq_dec g 0) as [->|]; [constructor; lia|]; destruct (Z.eq_dec v 0) as [->|]; [constructor; lia|apply feHeV; lia].
  - intros X. inversion X; subst; decide_all; try reflexivity; lia.
Qed.
Theorem c58_fe_no_loss maxHe maxV r g v i : 0 <= maxHe -> 0 <= maxV -> start3 r -> inside3 g v i r -> feAdmissible maxHe maxV g v i -> feSelect maxHe maxV r = true.
Proof.
  intros HX HV Hs Hi Ha. destruct r as [[g0 g1] [v0 v1] [i0 i1]]. unfold inside3, inIv, start3 in *. cbn [rG rV rI ib ie] in *.
  unfold feSelect. cbn [rG rV rI ib ie]. inversion Ha; subst; decide_all; try reflexivity; lia.
Qed.
Example c58_fe_ok : feAdmissible 30 30 20 15 0 /\ inside3 20 15 0 (Reg3 (Iv 16 24) (Iv 12 16) (Iv 0 1)).
Proof. split; [apply feHeV; lia|unfold inside3, inIv; cbn; lia]. Qed.

(** *** Zr: vacancies, basal loops, interstitials, one at a time *)
Inductive zrAdmissible (maxV maxB maxI : Z) : list Z -> Prop :=
| zaV v : 0 < v <= maxV -> zrAdmissible maxV maxB maxI [v; 0; 0]
| zaB b : 0 < b <= maxB -> zrAdmissible maxV maxB maxI [0; b; 0]
| zaI i : 0 < i <= maxI -> zrAdmissible maxV maxB maxI [0; 0; i].
Theorem c58_zr maxV maxB maxI v b i : 0 <= maxV -> 0 <= maxB -> 0 <= maxI -> 0 <= v -> 0 <= b -> 0 <= i ->
  (zrSelect maxV maxB maxI (map one_ [v; b; i]) = true <-> zrAdmissible maxV maxB maxI [v; b; i]).
Proof.
  intros HV HB HI Hv Hb Hi. unfold zrSelect, nAxis, simplex, axis, one_. cbn [map forallb nth ib ie filter]. rewrite !Z.eqb_refl. cbn [andb]. split.
  - destruct (Z.ltb_spec 0 v), (Z.ltb_spec 0 b), (Z.ltb_spec 0 i); cbn [length Nat.ltb Nat.leb Nat.eqb negb orb]; try discriminate;
    decide_all; intros X; try discriminate X.
    all: first [assert (b = 0) by lia; assert (i = 0) by lia; subst; apply zaV; lia | assert (v = 0) by lia; assert (i = 0) by lia; subst; apply zaB; lia | assert (v = 0) by lia; assert (b = 0) by lia; subst; apply zaI; lia].
  - intros X. inversion X; subst.
    all: decide_all; cbn [length Nat.ltb Nat.leb Nat.eqb negb orb]; decide_all; reflexivity.
Qed.
Theorem c58_zr_no_loss maxV maxB maxI c r : 0 <= maxV -> 0 <= maxB -> 0 <= maxI -> Forall (fun i => 0 <= ib i) r -> Forall2 inIv c r -> nAxis r = 1%nat -> zrAdmissible maxV maxB maxI c -> zrSelect maxV maxB maxI r = true.
Proof.
  intros HV HB HI Hs Hi Hn Ha. unfold zrSelect. rewrite Hn. cbn [Nat.ltb Nat.leb Nat.eqb negb orb].
  assert (L : forall r, c = [] \/ Forall2 inIv c r -> True) by auto. clear L.
  destruct r as [|[v0 v1] [|[b0 b1] [|[i0 i1] [|? ?]]]]; try (inversion Ha; subst; repeat match goal with H : Forall2 _ _ _ |- _ => inversion H; subst; clear H end; fail).
  unfold axis. cbn [nth ib ie]. inversion Hs; subst. inversion H2; subst. inversion H4; subst. cbn [ib] in *.
  inversion Ha; subst; inversion Hi; subst; repeat match goal with H : Forall2 _ (_ :: _) _ |- _ => inversion H; subst; clear H end; unfold inIv in *; cbn [ib ie] in *; decide_all; try reflexivity; try lia; rewrite ?andb_false_r; try reflexivity.
Qed.
Example c58_zr_ok : zrAdmissible 30 10 20 [0; 7; 0] /\ Forall2 inIv [0; 7; 0] [Iv 0 1; Iv 5 9; Iv 0 1] /\ nAxis [Iv 0 1; Iv 5 9; Iv 0 1] = 1%nat.
Proof. split; [apply zaB; lia|]. split; [repeat constructor; cbn; lia|reflexivity]. Qed.

(** *** Alloy: vacancies, voids, faulted loops, interstitials, perfect loops, Frank loops, one at a time: voids and
    faulted loops larger than all the vacancies, perfect and Frank loops larger than all the interstitials *)
Inductive alloyAdmissible (maxV maxI maxSize maxVoid : Z) : list Z -> Prop :=
| alV v : 0 < v <= maxV -> alloyAdmissible maxV maxI maxSize maxVoid [v; 0; 0; 0; 0; 0]
| alVoid n : maxV < n <= maxVoid -> alloyAdmissible maxV maxI maxSize maxVoid [0; n; 0; 0; 0; 0]
| alFaulted n : maxV < n <= maxSize -> alloyAdmissible maxV maxI maxSize maxVoid [0; 0; n; 0; 0; 0]
| alI i : 0 < i <= maxI -> alloyAdmissible maxV maxI maxSize maxVoid [0; 0; 0; i; 0; 0]
| alPerfect n : maxI < n <= maxSize -> alloyAdmissible maxV maxI maxSize maxVoid [0; 0; 0; 0; n; 0]
| alFrank n : maxI < n <= maxSize -> alloyAdmissible maxV maxI maxSize maxVoid [0; 0; 0; 0; 0; n].
Theorem c58_alloy maxV maxI maxSize maxVoid v vd fa i pe fr : 0 <= maxV -> 0 <= maxI -> 0 <= maxSize -> 0 <= maxVoid ->
  0 <= v -> 0 <= vd -> 0 <= fa -> 0 <= i -> 0 <= pe -> 0 <= fr ->
  (alloySelect maxV maxI maxSize maxVoid (map one_ [v; vd; fa; i; pe; fr]) = true <-> alloyAdmissible maxV maxI maxSize maxVoid [v; vd; fa; i; pe; fr]).
Proof.
  intros HV HI HS HVo Hv Hvd Hfa Hi Hpe Hfr. unfold alloySelect, nAxis, simplex, axis, one_. cbn [map forallb nth ib ie filter]. cbv zeta. rewrite !Z.eqb_refl. cbn [andb].
  assert (Hz : forall x, 0 <= x -> x = 0 \/ 0 < x) by (intros; lia). split.
  - destruct (Hz v Hv) as [->|P1]; destruct (Hz vd Hvd) as [->|P2]; destruct (Hz fa Hfa) as [->|P3]; destruct (Hz i Hi) as [->|P4]; destruct (Hz pe Hpe) as [->|P5]; destruct (Hz fr Hfr) as [->|P6];
    repeat match goal with H : 0 < ?x |- _ => rewrite (proj2 (Z.ltb_lt 0 x) H) in *; revert H end; change (0 <? 0) with false; cbn [length Nat.ltb Nat.leb Nat.eqb negb orb andb]; intros; try discriminate;
    match goal with X : _ = true |- _ => revert X end; decide_all; intros X; try discriminate X; constructor; lia.
  - intros X. inversion X; subst; decide_all; cbn [length Nat.ltb Nat.leb Nat.eqb negb orb]; decide_all; reflexivity.
Qed.
Definition finishedAlloy maxSize maxVoid gMin w (r : list iv) : Prop :=
  Forall2 (fun (f : bool) i => f = true -> len i = 1) (alloyRefine maxSize maxVoid gMin w r) r.
Lemma nAxis_zero r : nAxis r = 0%nat -> Forall (fun i => 0 <= ib i) r -> Forall (fun i => ib i = 0) r.
Proof.
  induction 2 as [|x l Hx Hl IH]; constructor; unfold nAxis in *; cbn in H; destruct (Z.ltb_spec 0 (ib x)); cbn in H; try discriminate; auto. lia.
Qed.
Theorem c58_alloy_no_loss maxV maxI maxSize maxVoid gMin w c r : 0 <= maxV -> 0 <= maxI -> 0 <= maxSize -> 0 <= maxVoid -> Forall (fun i => 0 <= ib i) r ->
  finishedAlloy maxSize maxVoid gMin w r -> Forall2 inIv c r -> alloyAdmissible maxV maxI maxSize maxVoid c -> alloySelect maxV maxI maxSize maxVoid r = true.
Proof.
  intros HV HI HS HVo Hs Hf Hi Ha.
  destruct r as [|[v0 v1] [|[vd0 vd1] [|[fa0 fa1] [|[i0 i1] [|[pe0 pe1] [|[fr0 fr1] [|? ?]]]]]]];
    try (exfalso; inversion Ha; subst; repeat match goal with H : Forall2 _ (_ :: _) _ |- _ => inversion H; subst; clear H | H : Forall2 _ [] _ |- _ => inversion H; subst; clear H end; fail).
  repeat match goal with H : Forall _ (_ :: _) |- _ => inversion H; subst; clear H end. cbn [ib] in *.
  assert (N : nAxis [Iv v0 v1; Iv vd0 vd1; Iv fa0 fa1; Iv i0 i1; Iv pe0 pe1; Iv fr0 fr1] <> 0%nat).
  { intros Z0. unfold finishedAlloy, alloyRefine in Hf. rewrite Z0 in Hf. cbn [Nat.ltb Nat.leb Nat.eqb repeat] in Hf.
    assert (Y := nAxis_zero _ Z0 ltac:(repeat constructor; cbn; auto)). repeat match goal with H : Forall _ (_ :: _) |- _ => inversion H; subst; clear H end.
    cbn [ib] in *. repeat match goal with H : Forall2 _ (true :: _) _ |- _ => inversion H; subst; clear H end. unfold len in *. cbn [ib ie] in *.
    inversion Ha; subst; repeat match goal with H : Forall2 inIv (_ :: _) _ |- _ => inversion H; subst; clear H end; unfold inIv in *; cbn [ib ie] in *;
    repeat match goal with H : true = true -> _ |- _ => specialize (H eq_refl) end; lia. }
  unfold alloySelect, nAxis, axis in *. cbn [nth ib ie filter] in *. cbv zeta.
  set (s := simplex _).
  assert (Hs1 : s = true -> vd1 = vd0 + 1 /\ fa1 = fa0 + 1 /\ pe1 = pe0 + 1 /\ fr1 = fr0 + 1).
  { unfold s, simplex. cbn [forallb ib ie]. rewrite !andb_true_iff, !Z.eqb_eq. lia. }
  clearbody s.
  inversion Ha; subst; clear Ha Hf; repeat match goal with H : Forall2 inIv (_ :: _) _ |- _ => inversion H; subst; clear H end; unfold inIv in *; cbn [ib ie] in *;
  repeat match goal with H : ?x <= 0 < _, H' : 0 <= ?x |- _ => assert (x = 0) by lia; subst x end; change (0 <? 0) with false in *;
  match goal with N : context [0 <? ?x] |- _ => destruct (Z.ltb_spec 0 x); [|cbn in N; lia] end; cbn [length Nat.ltb Nat.leb Nat.eqb negb orb andb];
  (destruct s; [destruct (Hs1 eq_refl) as (? & ? & ? & ?)|]); decide_all; try reflexivity; lia.
Qed.
Example c58_alloy_ok : alloyAdmissible 5 4 100 50 [0; 0; 12; 0; 0; 0] /\ finishedAlloy 100 50 10 10 [Iv 0 1; Iv 0 1; Iv 10 20; Iv 0 1; Iv 0 1; Iv 0 1] /\
  Forall2 inIv [0; 0; 12; 0; 0; 0] [Iv 0 1; Iv 0 1; Iv 10 20; Iv 0 1; Iv 0 1; Iv 0 1].
Proof. split; [apply alFaulted; lia|]. split; [cbn; repeat constructor; cbn; try discriminate; lia|repeat constructor; cbn; lia]. Qed.
Print Assumptions c58_ne.
Print Assumptions c58_ne_no_loss_partial.
Print Assumptions c58_ne_no_loss_refuted.
Print Assumptions c58_fe.
Print Assumptions c58_fe_no_loss.
Print Assumptions c58_zr.
Print Assumptions c58_zr_no_loss.
Print Assumptions c58_alloy.
Print Assumptions c58_alloy_no_loss.
