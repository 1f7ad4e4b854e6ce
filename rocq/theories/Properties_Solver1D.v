(** C32 (value stream), C48 (transport conserves the amount), C49 (temperature contributed
    once), C50 (transport keeps absent clusters non-negative). *)
From Verif Require Import StencilModel StencilProofs Solver1DModel Solver1DProofs.
Open Scope R_scope.

(** ** C32. [ws]: the values written, each with its position in the array and the matrix
    entry it was computed for. Entry by entry the assembled matrix is the sum of the values
    computed for this entry. *)
Theorem c32_assembled_partial nX lo ro gb soretEnts difEnts nwEnts handlers dof xs xm (ws : list ((nat * label) * R)) e :
  (forall h, In h handlers -> length (ents h) = nAdvec handlers) ->
  (1 <= lo)%nat \/ (1 <= xs)%nat ->
  map fst ws = writes nX lo ro gb soretEnts difEnts nwEnts handlers dof xs xm ->
  assembled (coords soretEnts difEnts nwEnts handlers dof xs xm) ws e =
  Rsum ws (fun w => if labEq (snd (fst w)) e then snd w else 0).
Proof.
  intros Hs H0 Ew. apply assembled_spec. intros w Hw.
  assert (St : stands (coords soretEnts difEnts nwEnts handlers dof xs xm) (writes nX lo ro gb soretEnts difEnts nwEnts handlers dof xs xm)).
  { apply stands_writes; auto. intros xi Hi Hsk. destruct H0 as [H0|H0].
    - intros ->. unfold skipped in Hsk. destruct (Nat.ltb_spec 0 lo); [|lia]. discriminate.
    - apply in_seq in Hi. lia. }
  apply (St (fst w)). rewrite <- Ew. apply in_map. exact Hw.
Qed.
(** The positions lie inside of the announced list, and both streams have the same length
    when no point is skipped. *)
Theorem c32_inside_partial nX lo ro gb soretEnts difEnts nwEnts handlers dof xs xm w :
  (forall h, In h handlers -> length (ents h) = nAdvec handlers) ->
  (1 <= lo)%nat \/ (1 <= xs)%nat ->
  In w (writes nX lo ro gb soretEnts difEnts nwEnts handlers dof xs xm) ->
  (fst w < length (coords soretEnts difEnts nwEnts handlers dof xs xm))%nat.
Proof.
  intros Hs H0 Hw. apply nth_error_Some.
  assert (St : stands (coords soretEnts difEnts nwEnts handlers dof xs xm) (writes nX lo ro gb soretEnts difEnts nwEnts handlers dof xs xm)).
  { apply stands_writes; auto. intros xi Hi Hsk. destruct H0 as [H0|H0].
    - intros ->. unfold skipped in Hsk. destruct (Nat.ltb_spec 0 lo); [|lia]. discriminate.
    - apply in_seq in Hi. lia. }
  rewrite (St w Hw). discriminate.
Qed.
(** A run with two advection handlers on the same clusters, two diffusing clusters, three
    network entries and the points 0..3 of 4, the first one empty. *)
Definition hA := AdvHandler [(0, 0); (1, 1)]%nat (fun _ => 1%Z) (fun _ => false).
Definition hB := AdvHandler [(0, 0); (1, 1)]%nat (fun xi => if Nat.eqb xi 2 then 1%Z else if Nat.ltb xi 2 then (-1)%Z else 1%Z) (fun xi => Nat.eqb xi 2).
Example stream_ok :
  let hs := [hA; hB] in
  (forall h, In h hs -> length (ents h) = nAdvec hs) /\
  length (coords [] [(0, 0); (1, 1)]%nat [(0, 0); (0, 1); (1, 1)]%nat hs 2 0 4) = (12 + 4 * 17)%nat /\
  length (writes 5 1 0 [] [] [(0, 0); (1, 1)]%nat [(0, 0); (0, 1); (1, 1)]%nat hs 2 0 4) = (12 + 3 * 17)%nat.
Proof. cbn zeta. split; [intros h [<-|[<-|[]]]; reflexivity|]. split; reflexivity. Qed.

(** Handlers with different numbers of clusters (a dummy surface handler with 0 clusters
    and a grain boundary with 7): one coordinate is announced per missing cluster where two
    values are skipped, so later values are added to the wrong entries and the last ones
    lie outside of the array. *)
Theorem c32_unequal_handlers_refuted :
  let hs := [AdvHandler [] (fun _ => 1%Z) (fun _ => false); AdvHandler [(0, 0)]%nat (fun _ => 1%Z) (fun _ => false)] in
  let cs := coords [] [] [(0, 0)]%nat hs 1 1 2 in
  let w := writes 5 1 0 [] [] [] [(0, 0)]%nat hs 1 1 2 in
  (exists k l, In (k, l) w /\ nth_error cs k <> Some (Some l)) /\
  (exists k l, In (k, l) w /\ (length cs <= k)%nat).
Proof.
  cbn zeta. split.
  - exists 8%nat, (lab 1 (0, 0)%nat 1). split; [cbn; auto 20|]. cbn. discriminate.
  - exists 15%nat, (lab 2 (0, 0)%nat 2). split; [cbn; auto 30|]. cbn. lia.
Qed.
(** No empty region on the left: the point 0 is skipped without advancing, every later value
    is shifted by one block. *)
Theorem c32_first_point_refuted :
  let cs := coords [] [(0, 0)]%nat [(0, 0)]%nat [] 1 0 3 in
  let w := writes 5 0 0 [] [] [(0, 0)]%nat [(0, 0)]%nat [] 1 0 3 in
  exists k l, In (k, l) w /\ nth_error cs k = Some (Some (lab 0 (0, 0)%nat 0)) /\ l = lab 1 (0, 0)%nat 1.
Proof. cbn zeta. exists 9%nat, (lab 1 (0, 0)%nat 1). split; [cbn; auto 20|]. split; reflexivity. Qed.
Print Assumptions c32_assembled_partial.
Print Assumptions c32_inside_partial.
Print Assumptions c32_unequal_handlers_refuted.
Print Assumptions c32_first_point_refuted.

(** ** C48. The amount over the points a .. a+n, weighted with half the distance of the
    neighbours, changes only through the two ends; constant coefficient, no mask. *)
Theorem c48_diffusion grid nX D c a n :
  (forall i, grid i < grid (S i)) -> (1 <= a)%nat -> (a + n < nX)%nat -> (forall i, D i = D 0%nat) ->
  Rsum (seq a (S n)) (fun xi => (hxLeft grid xi + hxRight grid nX xi) / 2 * diffAt grid nX D (fun _ => 1) c xi) =
  D 0%nat * ((c (S (a + n)) - c (a + n)%nat) / hxRight grid nX (a + n) - (c a - c (a - 1)%nat) / hxLeft grid a).
Proof. intros. apply diff_conserved; auto. Qed.
(** With the cell width used by the monitors this needs linearly varying widths. *)
Theorem c48_diffusion_cells_partial grid nX D c a n :
  (forall i, grid i < grid (S i)) -> (1 <= a)%nat -> (a + n < nX)%nat -> (forall i, D i = D 0%nat) ->
  (forall xi, (a <= xi <= a + n)%nat -> cellWidth grid (xi - 1) + cellWidth grid (xi + 1) = 2 * cellWidth grid xi) ->
  c (a - 1)%nat = 0 -> c a = 0 -> c (a + n)%nat = 0 -> c (S (a + n)) = 0 ->
  Rsum (seq a (S n)) (fun xi => cellWidth grid xi * diffAt grid nX D (fun _ => 1) c xi) = 0.
Proof. intros H Ha Hn HD Hw H1 H2 H3 H4. rewrite diff_conserved_cells by auto. rewrite H1, H2, H3, H4. unfold Rdiv. ring. Qed.
Example cells_ok : let grid := fun i => INR i * INR i in
  (forall i, grid i < grid (S i)) /\ forall xi, (1 <= xi)%nat -> cellWidth grid (xi - 1) + cellWidth grid (xi + 1) = 2 * cellWidth grid xi.
Proof.
  split.
  - intros i. rewrite S_INR. pose proof (pos_INR i). nra.
  - intros xi Hx. unfold cellWidth. destruct xi as [|xi]; [lia|]. replace (S xi - 1)%nat with xi by lia.
    rewrite !plus_INR, !S_INR. cbn [INR]. ring.
Qed.
(** The non-uniform grids offered to the user have jumps of the width: the amount changes. *)
Definition jumpGrid (i : nat) : R := if Nat.leb i 3 then INR i else 2 * INR i - 3.
Theorem c48_cells_refuted :
  let c := fun i : nat => if Nat.eqb i 3 then 1 else 0 in
  (forall i, jumpGrid i < jumpGrid (S i)) /\
  Rsum (seq 1 5) (fun xi => cellWidth jumpGrid xi * diffAt jumpGrid 7 (fun _ => 1) (fun _ => 1) c xi) <> 0.
Proof.
  cbn zeta. split.
  - intros i. unfold jumpGrid. destruct (Nat.leb_spec i 3), (Nat.leb_spec (S i) 3); rewrite S_INR; try lia; try lra.
    assert (i = 3)%nat by lia. subst. cbn [INR]. lra.
  - cbn [seq Rsum]. unfold cellWidth, diffAt, diff1, around, hxLeft, hxRight, jumpGrid.
    cbn [Nat.leb Nat.ltb Nat.add Nat.sub Nat.eqb hl hr Dl Dm Dr INR]. lra.
Qed.
(** A varying coefficient (temperature gradient) on a uniform grid: the amount changes. *)
Theorem c48_varying_coefficient_refuted :
  let c := fun i : nat => if Nat.eqb i 4 then 1 else 0 in let D := fun i : nat => if Nat.eqb i 4 then 2 else 1 in
  Rsum (seq 1 7) (fun xi => (hxLeft INR xi + hxRight INR 9 xi) / 2 * diffAt INR 9 D (fun _ => 1) c xi) <> 0.
Proof.
  cbn zeta. cbn [seq Rsum]. unfold diffAt, diff1, around, hxLeft, hxRight.
  cbn [Nat.leb Nat.ltb Nat.add Nat.sub Nat.eqb hl hr Dl Dm Dr INR]. lra.
Qed.
(** Advection to the surface: telescopes with the distance to the right neighbour. *)
Theorem c48_surface_advection grid nX loc_ A D T c a n :
  (forall i, grid i < grid (S i)) ->
  (a + n < nX)%nat -> (forall i, D i = D 0%nat) -> (forall i, T i = T 0%nat) -> 0 < T 0%nat ->
  (forall xi, (a <= xi)%nat -> loc_ < position grid xi) ->
  Rsum (seq a (S n)) (fun xi => hxRight grid nX xi * advAt grid nX loc_ A D T (fun _ => 1) c xi) =
  3 * A * D 0%nat / (kB * T 0%nat) *
  (c (S (a + n)) / (position grid (S (a + n)) - loc_) ^ 4 - c a / (position grid a - loc_) ^ 4).
Proof. intros. apply adv_conserved; auto; lra. Qed.
Example surface_ok : (forall i, INR i < INR (S i)) /\ forall xi, (1 <= xi)%nat -> 0 < position INR xi.
Proof.
  split; [intros; apply lt_INR; lia|]. intros xi Hx. unfold position. rewrite plus_INR. apply le_INR in Hx. cbn [INR] in *. lra.
Qed.

(** Advection to a grain boundary across y, on the column y = location + j h: the sink gains
    what its two neighbours lose, the total changes only through the far ends. *)
Definition gbColumn (loc_ h A D T : R) (u : Z -> R) (j : Z) : R :=
  advGB 3 4 (Adv (loc_ + IZR j * h) loc_ h h A D T D T)
    (fun k => match k with 0%nat => u j | 3%nat => u (j - 1)%Z | 4%nat => u (j + 1)%Z | _ => 0 end).
Lemma gbColumn_up loc_ h A D T u j : 0.001 <= h -> 0 < T -> (1 <= j)%Z ->
  gbColumn loc_ h A D T u j = 3 * A * D / (kB * T * h) * (u (j + 1)%Z / (IZR (j + 1) * h) ^ 4 - u j / (IZR j * h) ^ 4).
Proof.
  intros Hh HT Hj. pose proof kB_pos as HK. apply IZR_le in Hj.
  unfold gbColumn, advGB, onSink, gbStep, gbIndex, above, below. cbn [location pos strength aD aT ah1 ah2].
  replace (loc_ - (loc_ + IZR j * h)) with (- (IZR j * h)) by ring. rewrite Rabs_Ropp, Rabs_right by nra.
  destruct (Rlt_dec (IZR j * h) 0.001); [nra|].
  destruct (Rlt_dec loc_ (loc_ + IZR j * h)); [|nra]. destruct (Rlt_dec (loc_ + IZR j * h) loc_); [nra|].
  cbn [b2r b2n Nat.mul Nat.add]. rewrite plus_IZR. unfold pow. field. repeat split; nra.
Qed.
Lemma gbColumn_down loc_ h A D T u j : 0.001 <= h -> 0 < T -> (j <= -1)%Z ->
  gbColumn loc_ h A D T u j = 3 * A * D / (kB * T * h) * (u (j - 1)%Z / (IZR (j - 1) * h) ^ 4 - u j / (IZR j * h) ^ 4).
Proof.
  intros Hh HT Hj. pose proof kB_pos as HK. apply IZR_le in Hj.
  unfold gbColumn, advGB, onSink, gbStep, gbIndex, above, below. cbn [location pos strength aD aT ah1 ah2].
  replace (loc_ - (loc_ + IZR j * h)) with (- (IZR j * h)) by ring. rewrite Rabs_right by nra.
  destruct (Rlt_dec (- (IZR j * h)) 0.001); [nra|].
  destruct (Rlt_dec loc_ (loc_ + IZR j * h)); [nra|]. destruct (Rlt_dec (loc_ + IZR j * h) loc_); [|nra].
  cbn [b2r b2n Nat.mul Nat.add]. rewrite minus_IZR. unfold pow. field. repeat split; nra.
Qed.
Lemma gbColumn_sink loc_ h A D T u : 0 < T -> 0 < h ->
  gbColumn loc_ h A D T u 0 = 3 * A * D / (kB * T * h) * (u (-1)%Z / h ^ 4 + u 1%Z / h ^ 4).
Proof.
  intros HT Hh. pose proof kB_pos as HK. unfold gbColumn, advGB, onSink. cbn [location pos strength aD aT ah1 ah2 Z.sub Z.add Z.opp].
  replace (loc_ - (loc_ + 0 * h)) with 0 by ring. rewrite Rabs_R0. destruct (Rlt_dec 0 0.001); [|lra]. unfold pow. field. repeat split; lra.
Qed.
Theorem c48_grain_boundary loc_ h A D T u n : 0.001 <= h -> 0 < T ->
  gbColumn loc_ h A D T u 0 +
  Rsum (seq 1 (S n)) (fun j => gbColumn loc_ h A D T u (Z.of_nat j) + gbColumn loc_ h A D T u (- Z.of_nat j)) =
  3 * A * D / (kB * T * h) * ((u (Z.of_nat (n + 2)) + u (- Z.of_nat (n + 2))%Z) / (INR (n + 2) * h) ^ 4).
Proof.
  intros Hh HT. pose proof kB_pos as HK.
  assert (E : forall n, Rsum (seq 1 n) (fun j => gbColumn loc_ h A D T u (Z.of_nat j) + gbColumn loc_ h A D T u (- Z.of_nat j)) =
     3 * A * D / (kB * T * h) * ((u (Z.of_nat (n + 1)) + u (- Z.of_nat (n + 1))%Z) / (INR (n + 1) * h) ^ 4 - (u 1%Z + u (-1)%Z) / h ^ 4)).
  { clear n. induction n as [|n IH]; [cbn [seq Rsum Nat.add INR]; change (Z.of_nat 1) with 1%Z; cbn [Z.opp]; unfold pow; field; repeat split; lra|].
    rewrite seq_S, Rsum_app, IH. cbn [Rsum]. rewrite gbColumn_up, gbColumn_down by (auto; lia).
    replace (Z.of_nat (1 + n)) with (Z.of_nat (n + 1)) by lia.
    replace (Z.of_nat (n + 1) + 1)%Z with (Z.of_nat (S n + 1)) by lia.
    replace (- Z.of_nat (n + 1) - 1)%Z with (- Z.of_nat (S n + 1))%Z by lia.
    rewrite !opp_IZR, <- !INR_IZR_INZ.
    assert (0 < INR (n + 1)) by (apply lt_0_INR; lia). assert (0 < INR (S n + 1)) by (apply lt_0_INR; lia).
    unfold pow. field. repeat split; lra. }
  rewrite E, gbColumn_sink by lra. replace (S n + 1)%nat with (n + 2)%nat by lia.
  assert (0 < INR (n + 2)) by (apply lt_0_INR; lia). unfold pow. field. repeat split; lra.
Qed.
(** If no grid line lies within 0.001 of the grain boundary, nobody receives what the two
    nearest lines lose: the material disappears. Here the boundary is half-way between lines. *)
Theorem c48_grain_boundary_between_refuted A D T : 0 < A -> 0 < D -> 0 < T ->
  let at_ y c := advGB 3 4 (Adv y (1/2) 1 1 A D T D T) c in
  let up := fun k : nat => if Nat.eqb k 0 then 1 else 0 in   (* all material on the line y = 1 *)
  at_ 1 up + (at_ 0 (fun k => if Nat.eqb k 4 then 1 else 0) + at_ 2 (fun k => if Nat.eqb k 3 then 1 else 0)) < 0.
Proof.
  intros HA HD HT at_ up. pose proof kB_pos as HK. unfold at_, up, advGB, onSink, gbStep, gbIndex, above, below. cbn [location pos strength aD aT ah1 ah2].
  rewrite (Rabs_left1 (1/2 - 1)), (Rabs_right (1/2 - 0)), (Rabs_left1 (1/2 - 2)) by lra.
  repeat match goal with |- context[Rlt_dec ?a ?b] => destruct (Rlt_dec a b); try lra end.
  cbn [b2r b2n Nat.mul Nat.add Nat.eqb].
  assert (0 < A * D / (kB * T)) by (apply Rdiv_lt_0_compat; apply Rmult_lt_0_compat; auto).
  match goal with |- ?x < 0 => replace x with (- 48 * (A * D / (kB * T))) by (unfold pow; field; lra) end. lra.
Qed.
Print Assumptions c48_diffusion.
Print Assumptions c48_diffusion_cells_partial.
Print Assumptions c48_cells_refuted.
Print Assumptions c48_varying_coefficient_refuted.
Print Assumptions c48_surface_advection.
Print Assumptions c48_grain_boundary.
Print Assumptions c48_grain_boundary_between_refuted.

(** ** C49 *)
Theorem c49_once_partial nX lo ro gb rob xi :
  (1 <= lo)%nat -> (1 <= ro)%nat \/ rob = false -> (xi < nX)%nat -> (tempCalls nX lo ro gb rob xi <= 1)%nat.
Proof. apply tempCalls_le. Qed.
(** Exactly once at every point inside, once at the surface point. *)
Theorem c49_exactly_once nX lo ro rob xi :
  (1 <= lo)%nat -> (1 <= ro)%nat \/ rob = false -> (xi = 0 \/ lo <= xi <= nX - 1 - ro)%nat -> (2 <= nX)%nat ->
  (lo + ro < nX)%nat -> tempCalls nX lo ro [] rob xi = 1%nat.
Proof.
  intros Hl Hr Hx Hn Hs. unfold tempCalls, heatCondition, skipped. cbn [existsb].
  destruct (Nat.eqb_spec xi 0), (Nat.eqb_spec xi (nX - 1)), (Nat.ltb_spec xi lo), (Nat.ltb_spec (nX - 1 - ro) xi); cbn [orb andb]; try lia.
  destruct rob; cbn; [|lia]. destruct Hr; [lia|discriminate].
Qed.
Example once_ok : tempCalls 6 1 1 [] true 5 = 1%nat /\ tempCalls 6 1 1 [] true 0 = 1%nat /\ tempCalls 6 1 1 [] true 3 = 1%nat.
Proof. repeat split. Qed.
(** With no empty region on the left the surface point is counted twice, in the rate and in
    the Jacobian; with a Robin condition and no empty region on the right the last point. *)
Theorem c49_twice_refuted nX ro rate : (ro < nX)%nat ->
  tempCalls nX 0 ro [] false 0 = 2%nat /\ tempUpdate nX 0 ro [] false rate 0 = 2 * rate 0%nat.
Proof.
  intros H. unfold tempUpdate. assert (E : tempCalls nX 0 ro [] false 0 = 2%nat).
  { unfold tempCalls, heatCondition, skipped. cbn. destruct (Nat.ltb_spec (nX - 1 - ro) 0); [lia|reflexivity]. }
  rewrite E. split; [reflexivity|]. cbn [INR]. ring.
Qed.
Theorem c49_robin_twice_refuted nX lo : (lo < nX)%nat -> tempCalls nX lo 0 [] true (nX - 1) = 2%nat.
Proof.
  intros H. unfold tempCalls, heatCondition, skipped. cbn [existsb]. rewrite Nat.eqb_refl, Bool.orb_true_r.
  destruct (Nat.ltb_spec (nX - 1) lo); [lia|]. destruct (Nat.ltb_spec (nX - 1 - 0) (nX - 1)); [lia|reflexivity].
Qed.
Print Assumptions c49_once_partial.
Print Assumptions c49_exactly_once.
Print Assumptions c49_twice_refuted.
Print Assumptions c49_robin_twice_refuted.

(** ** C50. All concentrations non-negative, the cluster absent at the point. *)
Theorem c50_diffusion_partial grid nX D m c xi :
  (forall i, grid i < grid (S i)) -> (forall i, 0 <= m i) -> (forall i, 0 <= c i) -> c xi = 0 -> (forall i, 0 <= D i) ->
  (D (xi + 1)%nat - D (xi - 1)%nat <= 2 * D xi * (hxLeft grid xi + hxRight grid nX xi) / hxLeft grid xi) ->
  (D (xi - 1)%nat - D (xi + 1)%nat <= 2 * D xi * (hxLeft grid xi + hxRight grid nX xi) / hxRight grid nX xi) ->
  0 <= diffAt grid nX D m c xi.
Proof.
  intros Hg Hm Hc E HD H1 H2. unfold diffAt. apply diff1_empty_nonneg; cbn [hl hr Dl Dm Dr]; auto.
  - apply hL_pos; auto.
  - apply hR_pos; auto.
  - intros k. unfold around. destruct k as [|[|[|k]]]; auto. lra.
  - intros k. unfold around. destruct k as [|[|[|k]]]; auto. lra.
Qed.
Theorem c50_constant grid nX d m c xi :
  (forall i, grid i < grid (S i)) -> (forall i, 0 <= m i) -> (forall i, 0 <= c i) -> c xi = 0 -> 0 <= d ->
  0 <= diffAt grid nX (fun _ => d) m c xi.
Proof.
  intros Hg Hm Hc E Hd. apply c50_diffusion_partial; auto; pose proof (hL_pos grid Hg xi); pose proof (hR_pos grid nX Hg xi).
  - rewrite Rminus_diag_eq by reflexivity. apply Rle_mult_inv_pos; [|auto]. apply Rmult_le_pos; lra.
  - rewrite Rminus_diag_eq by reflexivity. apply Rle_mult_inv_pos; [|auto]. apply Rmult_le_pos; lra.
Qed.
Theorem c50_surface_advection grid nX loc_ A D T m c xi :
  (forall i, grid i < grid (S i)) -> (forall i, 0 <= m i) -> (forall i, 0 <= c i) -> c xi = 0 ->
  0 < A -> (forall i, 0 <= D i) -> (forall i, 0 < T i) -> loc_ < position grid xi ->
  0 <= advAt grid nX loc_ A D T m c xi.
Proof.
  intros Hg Hm Hc E HA HD HT Hp. unfold advAt. apply advS_empty_nonneg; cbn [strength aD aT ah2 pos location]; auto; try lra.
  - apply hR_pos; auto.
  - intros k. unfold around. destruct k as [|[|[|k]]]; auto. lra.
  - intros k. unfold around. destruct k as [|[|[|k]]]; auto. lra.
Qed.
Example c50_ok : (forall i, INR i < INR (S i)) /\ 0 < diffAt INR 9 (fun _ => 1) (fun _ => 1) (fun i => if Nat.eqb i 4 then 0 else 1) 4.
Proof.
  split; [intros; apply lt_INR; lia|]. unfold diffAt, diff1, around, hxLeft, hxRight.
  cbn [Nat.leb Nat.ltb Nat.add Nat.sub Nat.eqb hl hr Dl Dm Dr INR]. lra.
Qed.
(** A steep coefficient (migration energy E and a temperature gradient): concentration is
    taken from the empty point. *)
Theorem c50_steep_refuted :
  let D := fun i : nat => if Nat.leb 5 i then 100 else 1 in let c := fun i : nat => if Nat.eqb i 3 then 1 else 0 in
  c 4%nat = 0 /\ diffAt INR 9 D (fun _ => 1) c 4 < 0.
Proof.
  cbn zeta. split; [reflexivity|]. unfold diffAt, diff1, around, hxLeft, hxRight.
  cbn [Nat.leb Nat.ltb Nat.add Nat.sub Nat.eqb hl hr Dl Dm Dr INR]. lra.
Qed.
(** Soret diffusion takes from an empty point whenever the neighbour on the warm side... is
    the only one with material. *)
Theorem c50_soret_refuted p c :
  0 < shl p -> 0 < shr p -> 0 < beta p -> 0 < sDm p -> sTl p < sTr p -> c 0%nat = 0 -> c 1%nat = 0 -> 0 < c 2%nat ->
  soretFlux p c < 0.
Proof.
  intros Hl Hr Hb HD HT E0 E1 E2. unfold soretFlux. rewrite E0, E1.
  assert (0 < beta p * sDm p * c 2%nat * (sTr p - sTl p) / ((shl p + shr p) * (shl p + shr p))).
  { apply Rdiv_lt_0_compat; [|nra]. apply Rmult_lt_0_compat; [apply Rmult_lt_0_compat; [apply Rmult_lt_0_compat|]|]; lra. }
  match goal with |- ?x < 0 => replace x with (- (beta p * sDm p * c 2%nat * (sTr p - sTl p) / ((shl p + shr p) * (shl p + shr p)))) by (field; lra) end. lra.
Qed.
Example c50_soret_ok : let p := Soret 1 1 (65/10000) 1 1 1 900 950 1000 in 0 < shl p /\ 0 < shr p /\ 0 < beta p /\ 0 < sDm p /\ sTl p < sTr p.
Proof. cbn. lra. Qed.
Print Assumptions c50_diffusion_partial.
Print Assumptions c50_constant.
Print Assumptions c50_surface_advection.
Print Assumptions c50_steep_refuted.
Print Assumptions c50_soret_refuted.
