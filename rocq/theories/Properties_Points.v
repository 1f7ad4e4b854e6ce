(** C30, C42, C53 and C51, sharper: the spacing of the first grids, the thresholds of the
    surface events, where the initial concentration enters, and the heat coefficients of
    tungsten at room temperature. *)
From Verif Require Import HeatModel GridModel GridProofs.
Open Scope R_scope.

(** ** The spacing as a function of the depth, from the comments of
    SolverHandler.cpp:209-294: 0.1 nm down to 2.5 nm, 0.25 nm down to 5 nm, ... *)
Definition zones : list (R * R) :=
  [(2.5, 0.1); (5, 0.25); (7.5, 0.5); (50.5, 1); (100.5, 2); (150.5, 5); (300.5, 10); (500.5, 20); (1000.5, 50);
   (5000.5, 100); (10000.5, 200); (20000.5, 500); (30000.5, 1000); (50000.5, 2000); (100000.5, 5000);
   (200000.5, 10000); (500000.5, 20000); (1000000.5, 50000); (2000000.5, 100000); (5000000.5, 200000);
   (10000000.5, 500000)].
Fixpoint spacing (zs : list (R * R)) (depth : R) : R :=
  match zs with [] => 1000000 | (d, s) :: r => if Rlt_dec depth d then s else spacing r depth end.

Lemma push_length step n : forall l p, length (pushPoints step l n p) = n.
Proof. induction n as [|n IH]; intros l p; cbn; auto. Qed.
Lemma push_next step n : forall l p i, (S i < n)%nat ->
  nth (S i) (pushPoints step l n p) 0 = nth i (pushPoints step l n p) 0 + step (l + i)%nat.
Proof.
  induction n as [|n IH]; intros l p i H; [lia|]. cbn [pushPoints]. destruct i as [|i].
  - destruct n; [lia|]. cbn. rewrite Nat.add_0_r. reflexivity.
  - change (nth (S i) (pushPoints step (S l) n (p + step l)) 0 = nth i (pushPoints step (S l) n (p + step l)) 0 + step (l + S i)%nat).
    rewrite IH by lia. f_equal. f_equal. lia.
Qed.
(** Positions by index, without end. *)
Fixpoint place_ (step : nat -> R) (i : nat) : R := match i with O => 0 | S j => place_ step j + step j end.
Lemma push_place step n i : (i < n)%nat -> nth i (pushPoints step 0 n 0) 0 = place_ step i.
Proof.
  induction i as [|i IH]; intros H; [destruct n; [lia|reflexivity]|]. rewrite push_next by lia. rewrite IH by lia. reflexivity.
Qed.
(** The same positions from a table of runs (number of steps, step), and the zones it makes. *)
Fixpoint stepOf (T : list (nat * R)) (l : nat) : R :=
  match T with [] => 1000000 | (c, v) :: r => if Nat.ltb l c then v else stepOf r (l - c) end.
Fixpoint posOf (T : list (nat * R)) (l : nat) : R :=
  match T with [] => INR l * 1000000 | (c, v) :: r => if Nat.ltb l c then INR l * v else INR c * v + posOf r (l - c) end.
Fixpoint zonesOf (base : R) (T : list (nat * R)) : list (R * R) :=
  match T with [] => [] | (c, v) :: r => (base + INR c * v, v) :: zonesOf (base + INR c * v) r end.
Definition allPos (T : list (nat * R)) : Prop := Forall (fun cv => 0 < snd cv) T.
Lemma pos_zero T : posOf T 0 = 0.
Proof.
  induction T as [|[c v] r IH]; cbn [posOf]; [cbn; ring|]. destruct (Nat.ltb_spec 0 c); [cbn; ring|].
  replace (0 - c)%nat with 0%nat by lia. replace c with 0%nat by lia. rewrite IH. cbn. ring.
Qed.
Lemma pos_succ T : forall l, posOf T (S l) = posOf T l + stepOf T l.
Proof.
  induction T as [|[c v] r IH]; intros l; [cbn [posOf stepOf]; rewrite S_INR; ring|].
  cbn [posOf stepOf]. destruct (Nat.ltb_spec l c).
  - destruct (Nat.ltb_spec (S l) c); [rewrite S_INR; ring|]. replace c with (S l) by lia. rewrite Nat.sub_diag, pos_zero, S_INR. ring.
  - destruct (Nat.ltb_spec (S l) c); [lia|]. replace (S l - c)%nat with (S (l - c)) by lia. rewrite IH. ring.
Qed.
Lemma pos_nonneg T : allPos T -> forall l, 0 <= posOf T l.
Proof.
  unfold allPos. induction T as [|[c v] r IH]; intros H l; cbn [posOf]; [pose proof (pos_INR l); lra|].
  inversion H as [|? ? H1 H2]; subst. cbn [snd] in H1. pose proof (pos_INR l). pose proof (pos_INR c). destruct (Nat.ltb l c); [nra|].
  specialize (IH H2 (l - c)%nat). nra.
Qed.
Lemma spacing_of T : allPos T -> forall base l, spacing (zonesOf base T) (base + posOf T l) = stepOf T l.
Proof.
  unfold allPos. induction T as [|[c v] r IH]; intros H base l; [reflexivity|].
  inversion H as [|? ? H1 H2]; subst. cbn [snd] in H1. cbn [zonesOf posOf stepOf spacing]. destruct (Nat.ltb_spec l c) as [L|L].
  - apply lt_INR in L. destruct (Rlt_dec (base + INR l * v) (base + INR c * v)) as [G|G]; [reflexivity|nra].
  - pose proof (pos_nonneg r H2 (l - c)). destruct (Rlt_dec (base + (INR c * v + posOf r (l - c))) (base + INR c * v)) as [G|G]; [lra|].
    rewrite <- (IH H2 (base + INR c * v)%R (l - c)%nat). f_equal. ring.
Qed.
Definition runs : list (nat * R) :=
  [(26%nat, 0.1); (10%nat, 0.25); (5%nat, 0.5); (43%nat, 1); (25%nat, 2); (10%nat, 5); (15%nat, 10); (10%nat, 20); (10%nat, 50); (40%nat, 100); (25%nat, 200); (20%nat, 500);
   (10%nat, 1000); (10%nat, 2000); (10%nat, 5000); (10%nat, 10000); (15%nat, 20000); (10%nat, 50000); (10%nat, 100000); (15%nat, 200000); (10%nat, 500000)].
Lemma step_runs l : stepNonuniform l = stepOf runs l.
Proof.
  unfold stepNonuniform, runs. cbn [stepOf].
  repeat (match goal with |- (if Nat.ltb ?a ?b then _ else _) = (if Nat.ltb ?c ?d then _ else _) =>
    destruct (Nat.ltb_spec a b); destruct (Nat.ltb_spec c d); try (exfalso; lia); [reflexivity|] end). reflexivity.
Qed.
Lemma place_runs l : place_ stepNonuniform l = posOf runs l.
Proof. induction l as [|l IH]; [symmetry; apply pos_zero|]. cbn [place_]. rewrite pos_succ, IH, step_runs. reflexivity. Qed.
Lemma zone_eq (a b v : R) r q : a = b -> r = q -> (a, v) :: r = (b, v) :: q.
Proof. intros -> ->. reflexivity. Qed.
Lemma zones_runs : zonesOf (-0.1) runs = zones.
Proof.
  unfold runs, zones. cbn [zonesOf]. repeat rewrite INR_IZR_INZ. cbn [Z.of_nat Pos.of_succ_nat Pos.succ].
  repeat (apply zone_eq; [lra|]). reflexivity.
Qed.
Lemma runs_pos : allPos runs.
Proof. unfold allPos, runs. repeat (apply Forall_cons; [cbn [snd]; lra|]). apply Forall_nil. Qed.

Theorem c30_nonuniform_spacing n i : (1 <= i <= n)%nat -> let g := gridNonuniform n in
  g.[0] = 0 /\ g.[1] = 0.1 /\ g.[i + 1] - g.[i] = spacing zones (g.[i] - g.[1]).
Proof.
  intros H g. assert (P : forall k, (k < n + 2)%nat -> g.[k] = place_ stepNonuniform k) by (intros k Hk; apply push_place; auto).
  assert (G1 : g.[1] = 0.1) by (rewrite P by lia; cbn; lra).
  split; [rewrite P by lia; reflexivity|]. split; [exact G1|]. rewrite G1, !P by lia. rewrite Nat.add_1_r. cbn [place_].
  rewrite <- zones_runs, place_runs, step_runs. rewrite <- (spacing_of runs runs_pos (-0.1) i).
  replace (posOf runs i - 0.1) with (-0.1 + posOf runs i) by lra. lra.
Qed.
(** 2.5 nm below the surface the spacing changes from 0.1 to 0.25 nm. *)
Example c30_nonuniform_ok : spacing zones 2.4 = 0.1 /\ spacing zones 2.5 = 0.25 /\ spacing zones 20000000 = 1000000.
Proof.
  unfold zones, spacing. repeat split;
  repeat (match goal with |- context [Rlt_dec ?a ?c] => destruct (Rlt_dec a c); try (exfalso; lra) end); reflexivity.
Qed.

Theorem c30_geometric_spacing n r i : (1 <= i < n)%nat -> let g := gridGeometric n r in
  g.[0] = 0 /\ g.[1] = 0.1 /\ g.[2] = 0.2 /\ g.[i + 2] - g.[i + 1] = r * (g.[i + 1] - g.[i]).
Proof.
  intros H g. assert (P : forall k, (k < n + 2)%nat -> g.[k] = place_ (stepGeometric r) k) by (intros k Hk; apply push_place; auto).
  rewrite !P by lia. split; [reflexivity|]. split; [cbn; lra|]. split; [cbn; lra|].
  replace (i + 2)%nat with (S (S i)) by lia. replace (i + 1)%nat with (S i) by lia. cbn [place_]. unfold stepGeometric.
  destruct (Nat.ltb_spec i 1); [lia|]. destruct (Nat.ltb_spec (S i) 1); [lia|].
  replace (S i - 1)%nat with (S (i - 1)) by lia. cbn [pow]. ring.
Qed.
Example c30_geometric_ok : (1 <= 3 < 9)%nat. Proof. lia. Qed.

(** The Chebyshev grid: both ends are doubled (hence c30_first_cheby_refuted); between them the
    points increase from 0 to the depth and lie symmetrically. *)
Lemma cheby_at n h i : (1 <= i <= n)%nat -> (2 <= n)%nat -> (gridCheby n h).[i] = (h / 2) * (1 - cos (PI * INR (i - 1) / INR (n - 1))).
Proof.
  intros H Hn. unfold gridCheby. destruct i as [|[|i]]; [lia| |].
  - cbn. rewrite Rmult_0_r. unfold Rdiv. rewrite Rmult_0_l, cos_0. ring.
  - cbn [app nth]. rewrite app_nth1 by (rewrite map_length, seq_length; lia).
    set (f := fun l => h / 2 * (1 - cos (PI * INR l / INR (n - 1)))).
    rewrite (nth_indep _ 0 (f 0%nat)) by (rewrite map_length, seq_length; lia).
    rewrite (map_nth f), seq_nth by lia. replace (S (S i) - 1)%nat with (1 + i)%nat by lia. reflexivity.
Qed.
Theorem c30_cheby_partial n h : (2 <= n)%nat -> 0 < h -> let g := gridCheby n h in
  length g = (n + 2)%nat /\ g.[0] = 0 /\ g.[1] = 0 /\ g.[n] = h /\ g.[n + 1] = h /\
  (forall i, (1 <= i < n)%nat -> g.[i] < g.[i + 1]) /\ (forall i, (1 <= i <= n)%nat -> g.[i] + g.[n + 1 - i] = h).
Proof.
  intros Hn Hh g.
  assert (Hd : 0 < INR (n - 1)) by (apply lt_0_INR; lia). pose proof PI_RGT_0 as HP.
  assert (A : forall i, (1 <= i <= n)%nat -> g.[i] = (h / 2) * (1 - cos (PI * INR (i - 1) / INR (n - 1)))) by (intros i Hi; apply cheby_at; auto).
  assert (B : forall i, (1 <= i <= n)%nat -> 0 <= PI * INR (i - 1) / INR (n - 1) <= PI).
  { intros i Hi. pose proof (pos_INR (i - 1)). assert (INR (i - 1) <= INR (n - 1)) by (apply le_INR; lia). split.
    - apply Rmult_le_pos; [nra|]. left. apply Rinv_0_lt_compat. exact Hd.
    - apply (Rmult_le_reg_r (INR (n - 1))); [exact Hd|]. unfold Rdiv. rewrite Rmult_assoc, Rinv_l by lra. nra. }
  repeat split.
  - unfold g, gridCheby. rewrite !app_length, map_length, seq_length. cbn [length]. lia.
  - rewrite A by lia. replace (PI * INR (n - 1) / INR (n - 1)) with PI by (field; lra). rewrite cos_PI. field.
  - unfold g, gridCheby. rewrite !app_assoc. rewrite nth_snoc. rewrite app_length, map_length, seq_length. cbn [length].
    destruct (Nat.ltb_spec (n + 1) (2 + (n - 1))); [lia|]. destruct (Nat.eqb_spec (n + 1) (2 + (n - 1))); [reflexivity|lia].
  - intros i Hi. rewrite !A by lia. pose proof (B i ltac:(lia)). pose proof (B (i + 1)%nat ltac:(lia)).
    assert (cos (PI * INR (i + 1 - 1) / INR (n - 1)) < cos (PI * INR (i - 1) / INR (n - 1))).
    { apply cos_decreasing_1; try lra. unfold Rdiv. apply Rmult_lt_compat_r; [apply Rinv_0_lt_compat; exact Hd|].
      apply Rmult_lt_compat_l; [exact HP|]. apply lt_INR. lia. }
    nra.
  - intros i Hi. rewrite !A by lia.
    replace (PI * INR (n + 1 - i - 1) / INR (n - 1)) with (PI - PI * INR (i - 1) / INR (n - 1)).
    + rewrite Rtrigo_facts.cos_pi_minus. field.
    + replace (n + 1 - i - 1)%nat with (n - 1 - (i - 1))%nat by lia. rewrite (minus_INR (n - 1) (i - 1)) by lia. field. lra.
Qed.
Example c30_cheby_ok : (2 <= 3)%nat /\ (gridCheby 3 8).[2] = 4.
Proof.
  split; [lia|]. rewrite cheby_at by lia. cbn [Nat.sub]. replace (PI * INR 1 / INR 2) with (PI / 2) by (cbn; field).
  rewrite cos_PI2. lra.
Qed.
Print Assumptions c30_nonuniform_spacing.
Print Assumptions c30_geometric_spacing.
Print Assumptions c30_cheby_partial.

(** ** C42: the thresholds; 62.8 tungsten atoms per cubic nanometre *)
Theorem c42_trigger (o : nat) (g : list R) (n : R) : (1 <= o)%nat ->
  (movesUp o g n <-> exists k, o = S k /\ 62.8 * (g.[o] - g.[k]) < n) /\ (movesBack o g n <-> n < -56.52 * (g.[S o] - g.[o])).
Proof.
  intros Ho. unfold movesUp, movesBack, tungstenDensity. replace (o + 1)%nat with (S o) by lia. split; split; intros H; try lra.
  - exists (o - 1)%nat. split; [lia|lra].
  - destruct H as (k & -> & H). replace (S k - 1)%nat with k by lia. lra.
Qed.
(** An event always moves the surface, by one point up or by at least one point back. *)
Theorem c42_event_moves (g : list R) (n : R) : increasing g -> (3 <= length g)%nat ->
  (movesUp 1 g n -> up 1 g n = (n - 62.8 * (g.[1] - g.[0]), 1%Z)) /\
  (movesBack 1 g n -> forall n' off, retreat 1 g n = Some (n', off) -> (off <= -1)%Z /\ n + 62.8 * (g.[2] - g.[1]) <= n').
Proof.
  intros Hi Hl. destruct (c42_trigger 1 g n ltac:(lia)) as [T1 T2]. split.
  - intros H. apply T1 in H. destruct H as (k & K & H). injection K as <-. unfold up, tungstenDensity. cbn [Nat.sub]. destruct (Rgt_dec n (62.8 * (g.[1] - g.[0]))); [reflexivity|contradiction].
  - intros H n' off. apply T2 in H. pose proof (inc_lt g 1 2 Hi ltac:(lia)). unfold retreat.
    assert (M : forall f xi m o q, (xi + f = length g - 1)%nat -> back f xi g m o = Some (n', q) -> (q <= o)%Z /\ m <= n').
    { induction f as [|f IH]; intros xi m o q Hf; cbn [back]; destruct (Rlt_dec m 0); try discriminate;
      try (intros E; injection E as <- <-; split; [lia|lra]). intros E. apply IH in E; [|lia].
      pose proof (inc_lt g xi (xi + 1) Hi ltac:(lia)) as L. destruct E as [E1 E2]. split; [lia|]. unfold tungstenDensity in E2. lra. }
    replace (length g - 1 - 1)%nat with (S (length g - 3)) by lia. cbn [back]. destruct (Rlt_dec n 0); [|lra].
    intros E. apply M in E; [|lia]. destruct E as [E1 E2]. split; [lia|]. unfold tungstenDensity in E2. cbn [Nat.add] in E2. lra.
Qed.
Example c42_event_ok : movesBack 1 [0; 1; 2; 3; 4] (-60) /\ ~ movesBack 1 [0; 1; 2; 3; 4] (-56) /\ movesUp 1 [0; 1; 2; 3; 4] 63.
Proof. rewrite !(proj2 (c42_trigger 1 _ _ ltac:(lia))), (proj1 (c42_trigger 1 _ _ ltac:(lia))). cbn. split; [lra|]. split; [lra|]. exists 0%nat. split; [reflexivity|]. cbn. lra. Qed.
Print Assumptions c42_trigger.
Print Assumptions c42_event_moves.

(** ** C53: the initial concentration replaces nothing but the first point of a moved surface *)
Theorem c53_elsewhere old new c initial off xi : (xi <> 1)%nat \/ off = 0%Z \/ initial = None ->
  transferred old new c initial off xi = carry old new c xi.
Proof.
  unfold transferred, resets. intros H. destruct initial as [c0|]; [|reflexivity].
  destruct H as [H | [-> | H]]; [|reflexivity|discriminate]. apply Nat.eqb_neq in H. rewrite H, Bool.andb_false_r. reflexivity.
Qed.
Theorem c53_new_surface old new c c0 off : (0 < off < 4294967296)%Z -> transferred old new c (Some c0) off 1 = Some c0.
Proof. intros H. unfold transferred, resets. rewrite Z.mod_small by lia. destruct (Z.ltb_spec 0 off); [reflexivity|lia]. Qed.
Example c53_elsewhere_ok : (2 <> 1)%nat /\ transferred [0; 1; 2; 3] [0; 1; 2; 3] (fun _ => 7) (Some 5) 1 1 = Some 5.
Proof. split; [lia|]. apply c53_new_surface. lia. Qed.
Print Assumptions c53_elsewhere.
Print Assumptions c53_new_surface.

(** ** C51: at 300 K the coefficients are those of tungsten: a conductivity near 172 W/(m K), i.e.
    1.72e-7 W/(nm K), and a diffusivity between 68 and 70 mm^2/s, i.e. nm^2/s times 1e-12. *)
Theorem c51_room : 1.71e-7 < hbeta 300 < 1.73e-7 /\ 68e12 < hbeta 300 * hgamma 300 < 70e12.
Proof.
  assert (B : 1.71e-7 < hbeta 300 < 1.73e-7) by (unfold hbeta; lra). split; [exact B|].
  assert (C : 68e12 * (density * capacity 300) < hbeta 300 < 70e12 * (density * capacity 300)) by (unfold density, capacity, hbeta; lra).
  assert (D : 0 < density * capacity 300) by (unfold density, capacity; lra).
  unfold hgamma. remember (density * capacity 300) as y. remember (hbeta 300) as b. clear - C D.
  assert (E : b * (1.0 / y) * y = b) by (replace (1.0 / y) with (/ y) by (unfold Rdiv; lra); rewrite Rmult_assoc, Rinv_l by lra; ring).
  remember (b * (1.0 / y)) as x. clear - C D E. split; nra.
Qed.
Print Assumptions c51_room.
