(** C24 (time profiles) and C25 (implanted flux). *)
From Verif Require Import ImplantProofs.
Open Scope R_scope.

(** ** C24 *)
(** The value at each knot and on each interval, and outside the table. *)
Theorem c24_interpolates l1 a b l2 t : incr (l1 ++ a :: b :: l2) -> fst a <= t <= fst b ->
  lookup (times (l1 ++ a :: b :: l2)) (vals (l1 ++ a :: b :: l2)) t =
  Some (snd a + (snd b - snd a) * (t - fst a) / (fst b - fst a)).
Proof. intros I H. rewrite lookup_pl by (try exact I; destruct l1; discriminate). f_equal. apply pl_between; assumption. Qed.
Theorem c24_knot l1 a l2 : incr (l1 ++ a :: l2) -> lookup (times (l1 ++ a :: l2)) (vals (l1 ++ a :: l2)) (fst a) = Some (snd a).
Proof.
  intros I. destruct l2 as [|b l2].
  - rewrite lookup_pl by (try exact I; destruct l1; discriminate). f_equal. rewrite pl_hi; [|destruct l1; discriminate|exact I|];
    unfold times, vals; rewrite map_app; cbn [map]; rewrite last_last; [reflexivity|lra].
  - rewrite c24_interpolates; [|exact I|].
    + f_equal. rewrite Rminus_eq_0. unfold Rdiv. ring.
    + assert (H : fst a < fst b). { clear - I. induction l1 as [|x l1 IH]; [apply I|]. apply IH. destruct l1; apply I. } lra.
Qed.
Theorem c24_outside a r t : incr (a :: r) ->
  (t <= fst a -> lookup (times (a :: r)) (vals (a :: r)) t = Some (snd a)) /\
  (last (times (a :: r)) 0 <= t -> lookup (times (a :: r)) (vals (a :: r)) t = Some (last (vals (a :: r)) 0)).
Proof.
  intros I. split; intros H; (rewrite lookup_pl by (try exact I; discriminate)); f_equal; [apply pl_lo; assumption|apply pl_hi; [discriminate|assumption..]].
Qed.
(** Continuity in the time, as a total real function; growth between two times is
    bounded; a table of non-decreasing values gives a non-decreasing profile. *)
Theorem c24_continuous l : l <> [] -> incr l ->
  exists f, (forall t, lookup (times l) (vals l) t = Some (f t)) /\ continuity f.
Proof. intros N I. exists (pl l). split; [intros t; apply lookup_pl; assumption|]. intros t. apply pl_cont. exact I. Qed.
Theorem c24_monotone l t s : l <> [] -> incr l -> nondecr l -> t <= s ->
  exists a b, lookup (times l) (vals l) t = Some a /\ lookup (times l) (vals l) s = Some b /\ a <= b.
Proof. intros N I D H. exists (pl l t), (pl l s). rewrite !lookup_pl by assumption. repeat split. apply pl_mono; assumption. Qed.
(** For every non-empty table, sorted or not: the result exists (no division by zero,
    no fall-through) and lies between the smallest and largest tabulated value. *)
Theorem c24_bounded tm vs t : tm <> [] -> length tm = length vs ->
  exists y, lookup tm vs t = Some y /\ (exists a, In a vs /\ a <= y) /\ (exists b, In b vs /\ y <= b).
Proof.
  intros N L. destruct tm as [|ta tm]; [congruence|]. destruct vs as [|va vs]; [discriminate|]. unfold lookup.
  assert (Self : forall x, In x (va :: vs) -> (exists a, In a (va :: vs) /\ a <= x) /\ (exists b, In b (va :: vs) /\ x <= b)).
  { intros x Hx. split; exists x; split; (exact Hx || lra). }
  destruct (Rle_dec t ta) as [H|H]; [exists va; split; [reflexivity|apply Self; left; reflexivity]|].
  destruct (Rle_dec (last (ta :: tm) 0) t) as [H0|H0].
  - destruct (nth_error (va :: vs) (length (ta :: tm) - 1)) as [x|] eqn:E.
    + exists x. split; [reflexivity|]. apply Self. eapply nth_error_In. exact E.
    + apply nth_error_None in E. cbn in *. lia.
  - destruct (@loop_any (ta :: tm) (va :: vs) t) as (l1 & x & y & l2 & w1 & v & w & w2 & E1 & E2 & E3 & E4 & E5); [exact L|lra|lra|].
    rewrite E5. eexists. split; [reflexivity|]. rewrite E2.
    assert (Q : 0 <= (t - x) / (y - x) <= 1).
    { split; [apply Rmult_le_pos; [lra|left; apply Rinv_0_lt_compat; lra]|]. apply (Rmult_le_reg_r (y - x)); [lra|]. unfold Rdiv. rewrite Rmult_assoc, Rinv_l by lra. lra. }
    replace (v + (w - v) * (t - x) / (y - x)) with (v + (w - v) * ((t - x) / (y - x))) by (unfold Rdiv; ring).
    set (q := (t - x) / (y - x)) in *.
    assert (Iv : In v (w1 ++ v :: w :: w2)) by (apply in_or_app; right; left; reflexivity).
    assert (Iw : In w (w1 ++ v :: w :: w2)) by (apply in_or_app; right; right; left; reflexivity).
    destruct (Rle_or_lt v w); split; [exists v|exists w|exists w|exists v]; (split; [assumption|nra]).
Qed.
Example ex_table : table := [(0, 300); (10, 1300); (30, 300)].
Example ex_table_incr : incr ex_table. Proof. cbn. lra. Qed.
Example ex_table_at : lookup (times ex_table) (vals ex_table) 5 = Some 800.
Proof. etransitivity; [apply (c24_interpolates [] (0, 300) (10, 1300) [(30, 300)] 5); [apply ex_table_incr|cbn; lra]|]. f_equal. cbn. lra. Qed.
Example ex_table_nondecr : nondecr [(0, 300); (10, 1300); (30, 1300)]. Proof. cbn. lra. Qed.
(** The flux handler with user-defined fits clears the amplitudes, but not the times,
    at initialisation (CustomFitFluxHandler.h:101): every query of its time profile
    reads past the end. *)
Definition customAfterInitialize (tm vs : list R) : list R * list R := (tm, []).
Theorem c24_custom_refuted l t : l <> [] -> incr l ->
  let p := customAfterInitialize (times l) (vals l) in lookup (fst p) (snd p) t = None.
Proof.
  intros N I. destruct l as [|a r]; [congruence|]. cbn [customAfterInitialize fst snd]. unfold lookup. cbn [times map]. fold (times r).
  destruct (Rle_dec t (fst a)) as [H|H]; [reflexivity|]. destruct (Rle_dec (last (fst a :: times r) 0) t) as [H0|H0].
  - destruct (length (fst a :: times r) - 1)%nat; reflexivity.
  - destruct r as [|b r]; [cbn in H0; lra|]. reflexivity.
Qed.

(** ** C25 *)
(** For every implanted cluster kind, the flux added along the grid times the cell
    widths is the amplitude times the reduction factor, provided the fit is not negative
    at the cell centres and positive at one of them. Missing: fits that are positive only
    between the cell centres, or with negative parts outweighing the rest. *)
Theorem c25_total_partial ks amp sp g k fit red i : (sp + 4 <= length g)%nat -> gincr g -> nth_error ks k = Some (fit, red) ->
  (forall j, In j (cells g sp) -> 0 <= fit (depth g sp j)) -> In i (cells g sp) -> 0 < fit (depth g sp i) ->
  exists v, nth_error (vecs (initialize ks amp sp g)) k = Some v /\ implanted v sp g = Some (amp * red).
Proof.
  intros L G K P I Hp. exists (initVec fit amp red (norm fit g sp) g sp). split.
  - cbn. rewrite nth_error_map, K. reflexivity.
  - apply initVec_implanted; [exact L|]. eapply norm_pos; eassumption.
Qed.
(** The same under the sharp condition the code tests. *)
Theorem c25_total_norm ks amp sp g k fit red : (sp + 4 <= length g)%nat -> nth_error ks k = Some (fit, red) -> 0 < norm fit g sp ->
  exists v, nth_error (vecs (initialize ks amp sp g)) k = Some v /\ implanted v sp g = Some (amp * red).
Proof.
  intros L K N. exists (initVec fit amp red (norm fit g sp) g sp). split; [cbn; rewrite nth_error_map, K; reflexivity|]. apply initVec_implanted; assumption.
Qed.
(** Changing the amplitude by the time profile: recomputing the vector with the stored
    norm for the surface position it was initialised with stays within the vector and
    implants the new amplitude. *)
Theorem c25_recompute ks amp amp' sp g k fit red : (sp + 4 <= length g)%nat -> nth_error ks k = Some (fit, red) -> 0 < norm fit g sp ->
  let h := initialize ks amp sp g in
  exists v nf v', nth_error (vecs h) k = Some v /\ nth_error (norms h) k = Some nf /\
    recomputeVec fit amp' red nf (hgrid h) sp v = Some v' /\ implanted v' sp g = Some (amp' * red).
Proof.
  intros L K N h. exists (initVec fit amp red (norm fit g sp) g sp), (norm fit g sp), (initVec fit amp' red (norm fit g sp) g sp).
  split; [cbn; rewrite nth_error_map, K; reflexivity|]. split; [cbn; rewrite nth_error_map, K; reflexivity|].
  split; [apply recompute_init; exact L|apply initVec_implanted; assumption].
Qed.
(** The ends of the grid never receive any flux. *)
Theorem c25_ends ks amp sp g k fit red : (sp + 4 <= length g)%nat -> nth_error ks k = Some (fit, red) ->
  exists v, nth_error (vecs (initialize ks amp sp g)) k = Some v /\
    incident v sp sp = Some 0 /\ incident v sp (length g - 3) = Some 0 /\
    forall xi, (sp <= xi < length g - 2)%nat -> incident v sp xi <> None.
Proof.
  intros L K. exists (initVec fit amp red (norm fit g sp) g sp). split; [cbn; rewrite nth_error_map, K; reflexivity|].
  unfold initVec. split; [|split].
  - rewrite vec_at by (try exact L; lia). rewrite Nat.eqb_refl. reflexivity.
  - rewrite vec_at by (try exact L; lia). rewrite Nat.eqb_refl. destruct (Nat.eqb _ _); reflexivity.
  - intros xi H. rewrite vec_at by (try exact L; lia). discriminate.
Qed.
(** The shape: every cell between the surface and the end of the grid gets the amplitude times the fit at
    the distance of its centre from the surface over the discrete integral of the fit, nothing if that
    integral is not positive. *)
Definition x_ (g : list R) (i : nat) : R := nth i g 0.
Definition centre (g : list R) (sp i : nat) : R := (x_ g i + x_ g (i + 1)) / 2 - x_ g (sp + 1).
Definition integral (fit : R -> R) (g : list R) (sp : nat) : R :=
  Rsum (seq (sp + 1) (length g - sp - 4)) (fun i => fit (centre g sp i) * (x_ g (i + 1) - x_ g i)).
Theorem c25_shape ks amp sp g k fit red xi : (sp + 4 <= length g)%nat -> nth_error ks k = Some (fit, red) -> (sp < xi < length g - 3)%nat ->
  exists v, nth_error (vecs (initialize ks amp sp g)) k = Some v /\
    (0 < integral fit g sp -> incident v sp xi = Some (amp * red * fit (centre g sp xi) / integral fit g sp)) /\
    (integral fit g sp <= 0 -> incident v sp xi = Some 0).
Proof.
  intros L K H. exists (initVec fit amp red (norm fit g sp) g sp). split; [cbn; rewrite nth_error_map, K; reflexivity|].
  assert (E : norm fit g sp = integral fit g sp).
  { unfold norm, integral, cells. replace (length g - 3 - (sp + 1))%nat with (length g - sp - 4)%nat by lia. reflexivity. }
  unfold initVec. rewrite vec_at by (try exact L; lia). destruct (Nat.eqb_spec xi sp); [lia|]. destruct (Nat.eqb_spec xi (length g - 3)); [lia|].
  rewrite E. unfold normalized. change (depth g sp xi) with (centre g sp xi). destruct (Rlt_dec 0 (integral fit g sp)); split; intros; try lra; f_equal; field; lra.
Qed.
(** Fluence: after any sequence of steps (amplitude, dt) the first entry is the sum of
    amplitude times duration, and entry k+1 the same times the reduction factor k. *)
Definition fluence (rs : list R) (l : list (R * R)) : list R := fold_left (fun f s => incrementFluence rs (fst s) (snd s) f) l [0].
Lemma zipadd_map rs S x : zipadd (map (fun r => S * r) rs) rs x = map (fun r => (S + x) * r) rs.
Proof. induction rs as [|r rs IH]; [reflexivity|]. cbn. rewrite IH. f_equal. ring. Qed.
Theorem c25_fluence rs l : l <> [] -> fluence rs l =
  Rsum l (fun s => fst s * snd s) :: map (fun r => Rsum l (fun s => fst s * snd s) * r) rs.
Proof.
  intros N. unfold fluence.
  assert (A : forall l S, fold_left (fun f s => incrementFluence rs (fst s) (snd s) f) l (S :: map (fun r => S * r) rs) =
     (S + Rsum l (fun s => fst s * snd s)) :: map (fun r => (S + Rsum l (fun s => fst s * snd s)) * r) rs).
  { clear. induction l as [|s l IH]; intros S; [cbn; rewrite Rplus_0_r; reflexivity|]. cbn [fold_left Rsum].
    assert (E : incrementFluence rs (fst s) (snd s) (S :: map (fun r => S * r) rs) = (S + fst s * snd s) :: map (fun r => (S + fst s * snd s) * r) rs).
    { destruct rs as [|r rs]; [reflexivity|]. unfold incrementFluence. f_equal. apply (zipadd_map (r :: rs)). }
    rewrite E, IH. rewrite Rplus_assoc. reflexivity. }
  destruct l as [|s l]; [congruence|]. cbn [fold_left].
  assert (E : incrementFluence rs (fst s) (snd s) [0] = (0 + fst s * snd s) :: map (fun r => (0 + fst s * snd s) * r) rs).
  { destruct rs as [|r rs]; [reflexivity|]. unfold incrementFluence. f_equal.
    replace (repeat 0 (length (r :: rs))) with (map (fun r => 0 * r) (r :: rs)); [apply (zipadd_map (r :: rs))|].
    clear. induction (r :: rs) as [|x t IH]; [reflexivity|]. cbn. rewrite IH. f_equal. ring. }
  rewrite E, A. cbn [Rsum]. rewrite Rplus_0_l. reflexivity.
Qed.
Example ex_grid : list R := [-1; 0; 1; 19; 20; 21; 22].
Example ex_grid_incr : gincr ex_grid.
Proof. intros i H. unfold gr. cbn in H. do 6 (destruct i as [|i]; [cbn; lra|]). cbn in H. lia. Qed.
Example ex_implant : (0 + 4 <= length ex_grid)%nat /\ (forall j, In j (cells ex_grid 0) -> 0 <= (fun _ : R => 1) (depth ex_grid 0 j)) /\ In 2%nat (cells ex_grid 0).
Proof. split; [cbn; lia|]. split; [intros; lra|]. cbn. auto. Qed.
Example ex_implant_surface : (2 + 4 <= length ex_grid)%nat /\ In 3%nat (cells ex_grid 2) /\ 0 < norm (fun _ => 1) ex_grid 2.
Proof. split; [cbn; lia|]. split; [cbn; auto|]. unfold norm. cbv -[IZR Rplus Rmult Rdiv Ropp Rminus Rinv Rlt]. lra. Qed.
(** A fit that is positive only between cell centres implants nothing. *)
Theorem c25_missed_refuted : exists fit amp g, 0 < amp /\ gincr g /\ (forall x, 0 <= fit x) /\
  (exists x, gr g 1 < x < gr g (length g - 3) /\ 0 < fit (x - gr g 1)) /\
  exists v, nth_error (vecs (initialize [(fit, 1)] amp 0 g)) 0 = Some v /\ implanted v 0 g = Some 0.
Proof.
  set (fit := fun x => if Rle_dec x 2 then (if Rle_dec 1 x then 1 else 0) else 0).
  exists fit, 1, ex_grid. split; [lra|]. split; [apply ex_grid_incr|]. split.
  { intros x. unfold fit. repeat destruct Rle_dec; lra. }
  split. { exists 2. cbn. split; [lra|]. unfold fit. destruct (Rle_dec (2 - 0) 2); [|lra]. destruct (Rle_dec 1 (2 - 0)); lra. }
  exists (initVec fit 1 1 (norm fit ex_grid 0) ex_grid 0). split; [reflexivity|].
  unfold initVec. rewrite vec_implanted by (cbn; lia). f_equal.
  assert (F : forall i, In i (cells ex_grid 0) -> fit (depth ex_grid 0 i) = 0).
  { intros i [<-|[<-|[<-|[]]]]; unfold depth, gr; cbn; unfold fit; repeat destruct Rle_dec; lra. }
  rewrite (Rsum_ext (cells ex_grid 0) _ (fun _ => 0)); [apply Rsum_zero; reflexivity|]. intros i Hi. rewrite F by exact Hi. ring.
Qed.
(** The fits for W110 and W111 (W110FitFluxHandler.h:30-40, W111FitFluxHandler.h:30-40)
    are negative near their cut-off depth 10: helium is removed there. *)
Definition w110 (x : R) : R := if Rlt_dec 10 x then 0 else
  7.93260868 + 1.49429886 * x - 4.48320209 * x ^ 2 + 1.97014869 * x ^ 3 - 0.407986353 * x ^ 4 +
  0.0454535058 * x ^ 5 - 0.0026618556 * x ^ 6 + 0.0000678768532 * x ^ 7 - 0.000000271171991 * x ^ 8.
Definition w111 (x : R) : R := if Rlt_dec 10 x then 0 else
  1.563416 + 7.2071044 * x - 5.4632628 * x ^ 2 + 1.727342 * x ^ 3 - 0.3014105 * x ^ 4 +
  0.0311738 * x ^ 5 - 0.0019016 * x ^ 6 + 0.00006318 * x ^ 7 - 0.0000008813 * x ^ 8.
Lemma negative_flux fit : 0 < fit (1 / 2) -> fit 10 < 0 -> - fit 10 * 18 < fit (1 / 2) -> fit (39 / 2) = 0 ->
  exists v, nth_error (vecs (initialize [(fit, 1)] 1 0 ex_grid)) 0 = Some v /\ exists xi y, incident v 0 xi = Some y /\ y < 0.
Proof.
  intros F1 F2 F3 F4. exists (initVec fit 1 1 (norm fit ex_grid 0) ex_grid 0). split; [reflexivity|].
  assert (D1 : depth ex_grid 0 1 = 1 / 2) by (unfold depth, gr; cbn; lra).
  assert (D2 : depth ex_grid 0 2 = 10) by (unfold depth, gr; cbn; lra).
  assert (D3 : depth ex_grid 0 3 = 39 / 2) by (unfold depth, gr; cbn; lra).
  assert (W1 : width ex_grid 1 = 1) by (unfold width, gr; cbn; lra).
  assert (W2 : width ex_grid 2 = 18) by (unfold width, gr; cbn; lra).
  assert (N : 0 < norm fit ex_grid 0).
  { unfold norm. change (cells ex_grid 0) with [1%nat; 2%nat; 3%nat]. cbn [Rsum]. rewrite D1, D2, D3, W1, W2, F4. lra. }
  exists 2%nat, (normalized 1 1 (norm fit ex_grid 0) * fit 10). split; [unfold incident, initVec; cbn [cells]; change (cells ex_grid 0) with [1%nat; 2%nat; 3%nat]; cbn [map app nth_error]; cbn; rewrite <- D2; reflexivity|].
  unfold normalized. destruct (Rlt_dec 0 (norm fit ex_grid 0)); [|contradiction].
  assert (0 < 1 * 1 / norm fit ex_grid 0) by (apply Rdiv_lt_0_compat; lra). nra.
Qed.
Theorem c25_negative_refuted : forall fit, fit = w110 \/ fit = w111 ->
  exists v, nth_error (vecs (initialize [(fit, 1)] 1 0 ex_grid)) 0 = Some v /\ exists xi y, incident v 0 xi = Some y /\ y < 0.
Proof.
  intros fit [-> | ->]; apply negative_flux; unfold w110, w111; repeat destruct Rlt_dec; lra.
Qed.
Print Assumptions c24_interpolates.
Print Assumptions c24_knot.
Print Assumptions c24_outside.
Print Assumptions c24_continuous.
Print Assumptions c24_monotone.
Print Assumptions c24_bounded.
Print Assumptions c24_custom_refuted.
Print Assumptions c25_total_partial.
Print Assumptions c25_total_norm.
Print Assumptions c25_recompute.
Print Assumptions c25_ends.
Print Assumptions c25_shape.
Print Assumptions c25_fluence.
Print Assumptions c25_missed_refuted.
Print Assumptions c25_negative_refuted.
