(** C69: nothing passes a reflecting or periodic side (one dimension). *)
From Verif Require Import Solver1DModel Solver1DProofs StencilProofs.
Open Scope R_scope.

(** The values beyond the ends which the array of the solver provides
    (PetscSolver1DHandler.cpp:97-104): DM_BOUNDARY_MIRROR, the end point is the mirror;
    DM_BOUNDARY_PERIODIC. *)
Definition mirrored (nX : nat) (c : nat -> R) : Prop := c nX = c (nX - 2)%nat.
Definition periodic (nX : nat) (c : nat -> R) : Prop := c nX = c 0%nat.

Section UNIFORM.
Variables (grid : nat -> R) (g0 h D : R) (nX : nat).
Hypothesis Hgrid : forall i, grid i = g0 + INR i * h.
Hypothesis Hh : 0 < h.
Lemma hg i : grid i < grid (S i).
Proof using Hh Hgrid. rewrite !Hgrid, S_INR. nra. Qed.
Lemma hw i : cellWidth grid i = h.
Proof using Hgrid. unfold cellWidth. rewrite !Hgrid, plus_INR. cbn [INR]. ring. Qed.
Lemma hr_ i : hxRight grid nX i = h.
Proof using Hgrid. unfold hxRight. rewrite !Hgrid, !plus_INR. cbn [INR]. destruct (i <? nX)%nat; lra. Qed.
Lemma hl_ i : (1 <= i)%nat -> hxLeft grid i = h.
Proof using Hgrid.
  intros H. unfold hxLeft. destruct (Nat.leb_spec 1 i); [|lia].
  rewrite !Hgrid, plus_INR, minus_INR by lia. cbn [INR]. lra.
Qed.
Lemma inner c n : (1 + n < nX)%nat ->
  Rsum (seq 1 (S n)) (fun xi => h * diffAt grid nX (fun _ => D) (fun _ => 1) c xi) =
  D / h * ((c (S (S n)) - c (S n)) - (c 1%nat - c 0%nat)).
Proof using Hh Hgrid.
  intros H. rewrite (Rsum_ext _ _ (fun xi => cellWidth grid xi * diffAt grid nX (fun _ => D) (fun _ => 1) c xi))
    by (intros; rewrite hw; reflexivity).
  rewrite (diff_conserved_cells grid nX hg) by (auto; try lia; intros; rewrite !hw; lra).
  rewrite (hr_ ), hl_ by lia. cbn [Nat.add Nat.sub]. field. lra.
Qed.
Lemma rate_in lo ro c xi : (lo <= xi)%nat -> (1 <= xi)%nat -> (xi <= nX - 1 - ro)%nat ->
  diffRate grid nX lo ro [] (fun _ => D) (fun _ => 1) c xi = diffAt grid nX (fun _ => D) (fun _ => 1) c xi.
Proof using.
  intros A B C. unfold diffRate, skipped. destruct (Nat.ltb_spec xi lo); [lia|].
  destruct (Nat.ltb_spec (nX - 1 - ro) xi); [lia|]. destruct (Nat.eqb_spec xi 0); [lia|]. reflexivity.
Qed.
Lemma rate_0 lo ro c : diffRate grid nX lo ro [] (fun _ => D) (fun _ => 1) c 0 = 0.
Proof using. unfold diffRate. rewrite Nat.eqb_refl, Bool.orb_true_r. reflexivity. Qed.
End UNIFORM.

(** The change of the content by diffusion when neither side is a free surface. *)
Theorem c69_closed grid g0 h D nX c : (forall i, grid i = g0 + INR i * h) -> 0 < h -> (2 <= nX)%nat ->
  Rsum (seq 0 nX) (fun xi => (grid (S xi) - grid xi) * diffRate grid nX 0 0 [] (fun _ => D) (fun _ => 1) c xi) =
  D / h * ((c nX - c (nX - 1)%nat) - (c 1%nat - c 0%nat)).
Proof.
  intros Hgrid Hh Hn. replace nX with (S (S (nX - 2))) at 1 by lia.
  change (seq 0 (S (S (nX - 2)))) with (0%nat :: seq 1 (S (nX - 2))). cbn [Rsum].
  rewrite rate_0, Rmult_0_r, Rplus_0_l.
  rewrite (Rsum_ext _ _ (fun xi => h * diffAt grid nX (fun _ => D) (fun _ => 1) c xi)).
  - rewrite (inner grid g0 h D nX Hgrid Hh) by lia. replace (S (S (nX - 2))) with nX by lia. replace (S (nX - 2)) with (nX - 1)%nat by lia. reflexivity.
  - intros xi Hx. apply in_seq in Hx. rewrite rate_in by lia. f_equal. rewrite !Hgrid, S_INR. ring.
Qed.
Example c69_closed_ok : let c := fun i => INR i in
  Rsum (seq 0 3) (fun xi => ((0 + INR (S xi) * 2) - (0 + INR xi * 2)) *
     diffRate (fun i => 0 + INR i * 2) 3 0 0 [] (fun _ => 4) (fun _ => 1) c xi) = 0.
Proof. cbn zeta. etransitivity; [apply (c69_closed (fun i => 0 + INR i * 2) 0 2 4 3 INR); [reflexivity|lra|lia]|]. cbn [Nat.sub INR]. lra. Qed.

(** A reflecting right side and a free surface on the left: with the end point counted as
    half a cell nothing is lost but at the surface. *)
Theorem c69_reflecting_right grid g0 h D nX c : (forall i, grid i = g0 + INR i * h) -> 0 < h -> (3 <= nX)%nat -> mirrored nX c -> c 0%nat = 0 ->
  let rate := fun xi => diffRate grid nX 1 0 [] (fun _ => D) (fun _ => 1) c xi in
  Rsum (seq 1 (nX - 2)) (fun xi => (grid (S xi) - grid xi) * rate xi) +
  (grid nX - grid (nX - 1)%nat) / 2 * rate (nX - 1)%nat = - (D * c 1%nat / h).
Proof.
  intros Hgrid Hh Hn Hm C0 rate. unfold rate. rewrite rate_in by lia. replace (nX - 2)%nat with (S (nX - 3)) at 1 by lia.
  rewrite (Rsum_ext _ _ (fun xi => h * diffAt grid nX (fun _ => D) (fun _ => 1) c xi)).
  - rewrite (inner grid g0 h D nX Hgrid Hh) by lia. rewrite C0. unfold mirrored in Hm.
    replace (grid nX - grid (nX - 1)%nat) with h by (rewrite !Hgrid, minus_INR by lia; cbn [INR]; ring).
    unfold diffAt, diff1. cbn [hl hr Dl Dm Dr around]. rewrite (hr_ grid g0 h nX Hgrid), (hl_ grid g0 h Hgrid) by lia.
    replace (nX - 1 + 1)%nat with nX by lia. rewrite Hm. replace (nX - 1 - 1)%nat with (nX - 2)%nat by lia.
    replace (S (S (nX - 3))) with (nX - 1)%nat by lia. replace (S (nX - 3)) with (nX - 2)%nat by lia. field. lra.
  - intros xi Hx. apply in_seq in Hx. rewrite rate_in by lia. f_equal. rewrite !Hgrid, S_INR. ring.
Qed.
Example c69_reflecting_right_ok : mirrored 3 (fun i => match i with 1%nat => 5 | 2%nat => 7 | 3%nat => 5 | _ => 0 end).
Proof. reflexivity. Qed.
(** The output counts the end point as a whole cell: material which has reached the
    reflecting side leaves the content as it flows back, and appears as it arrives. *)
Theorem c69_reflecting_right_content grid g0 h D nX c : (forall i, grid i = g0 + INR i * h) -> 0 < h -> (3 <= nX)%nat -> mirrored nX c -> c 0%nat = 0 ->
  Rsum (seq 1 (nX - 1)) (fun xi => (grid (S xi) - grid xi) * diffRate grid nX 1 0 [] (fun _ => D) (fun _ => 1) c xi) =
  - (D * c 1%nat / h) - D / h * (c (nX - 1)%nat - c (nX - 2)%nat).
Proof.
  intros Hgrid Hh Hn Hm C0. replace (nX - 1)%nat with (S (nX - 2)) at 1 by lia.
  rewrite (Rsum_ext _ _ (fun xi => h * diffAt grid nX (fun _ => D) (fun _ => 1) c xi)).
  - rewrite (inner grid g0 h D nX Hgrid Hh) by lia. rewrite C0. unfold mirrored in Hm. replace (S (S (nX - 2))) with nX by lia.
    rewrite Hm. replace (S (nX - 2)) with (nX - 1)%nat by lia. field. lra.
  - intros xi Hx. apply in_seq in Hx. rewrite rate_in by lia. f_equal. rewrite !Hgrid, S_INR. ring.
Qed.
Theorem c69_reflecting_right_refuted : exists c, mirrored 5 c /\ (forall i, 0 <= c i) /\ c 0%nat = 0 /\ c 1%nat = 0 /\
  Rsum (seq 1 4) (fun xi => ((0 + INR (S xi) * 1) - (0 + INR xi * 1)) *
     diffRate (fun i => 0 + INR i * 1) 5 1 0 [] (fun _ => 1) (fun _ => 1) c xi) = -1.
Proof.
  exists (fun i => if Nat.eqb i 4 then 1 else 0). split; [reflexivity|]. split; [intros i; destruct (Nat.eqb i 4); lra|].
  split; [reflexivity|]. split; [reflexivity|].
  change (seq 1 4) with (seq 1 (5 - 1)). etransitivity; [apply (c69_reflecting_right_content (fun i => 0 + INR i * 1) 0 1 1 5 (fun i => if Nat.eqb i 4 then 1 else 0)); [reflexivity|lra|lia|reflexivity|reflexivity]|].
  cbn [Nat.sub Nat.eqb]. lra.
Qed.
(** A reflecting left side: the first point is passed over (line 985), its concentration
    stays as it was, and it takes up what reaches it. *)
Theorem c69_first_point grid D nX ro c : 
  diffRate grid nX 0 ro [] (fun _ => D) (fun _ => 1) c 0 = 0.
Proof. apply rate_0. Qed.
Theorem c69_reflecting_left_refuted : exists c, mirrored 5 c /\ (forall i, 0 <= c i) /\ c 4%nat = 0 /\ c 3%nat = 0 /\
  Rsum (seq 0 5) (fun xi => ((0 + INR (S xi) * 1) - (0 + INR xi * 1)) *
     diffRate (fun i => 0 + INR i * 1) 5 0 0 [] (fun _ => 1) (fun _ => 1) c xi) = -1.
Proof.
  exists (fun i => if Nat.eqb i 1 then 1 else 0). split; [reflexivity|]. split; [intros i; destruct (Nat.eqb i 1); lra|].
  split; [reflexivity|]. split; [reflexivity|].
  etransitivity; [apply (c69_closed (fun i => 0 + INR i * 1) 0 1 1 5 (fun i => if Nat.eqb i 1 then 1 else 0)); [reflexivity|lra|lia]|]. cbn [Nat.sub Nat.eqb]. lra.
Qed.
(** Periodic sides: the first point takes up what reaches it from both sides. *)
Theorem c69_periodic grid g0 h D nX c : (forall i, grid i = g0 + INR i * h) -> 0 < h -> (2 <= nX)%nat -> periodic nX c ->
  Rsum (seq 0 nX) (fun xi => (grid (S xi) - grid xi) * diffRate grid nX 0 0 [] (fun _ => D) (fun _ => 1) c xi) =
  - (D / h * ((c 1%nat - c 0%nat) + (c (nX - 1)%nat - c 0%nat))).
Proof. intros Hgrid Hh Hn Hp. rewrite (c69_closed grid g0 h) by auto. unfold periodic in Hp. rewrite Hp. ring. Qed.
Theorem c69_periodic_refuted : exists c, periodic 5 c /\ (forall i, 0 <= c i) /\
  Rsum (seq 0 5) (fun xi => ((0 + INR (S xi) * 1) - (0 + INR xi * 1)) *
     diffRate (fun i => 0 + INR i * 1) 5 0 0 [] (fun _ => 1) (fun _ => 1) c xi) = -2.
Proof.
  exists (fun i => if (1 <=? i)%nat && (i <=? 4)%nat then 1 else 0). split; [reflexivity|]. split.
  - intros i. destruct ((1 <=? i)%nat && (i <=? 4)%nat); lra.
  - etransitivity; [apply (c69_periodic (fun i => 0 + INR i * 1) 0 1 1 5 (fun i => if (1 <=? i)%nat && (i <=? 4)%nat then 1 else 0)); [reflexivity|lra|lia|reflexivity]|]. cbn [Nat.sub Nat.leb andb]. lra.
Qed.
Print Assumptions c69_closed.
Print Assumptions c69_reflecting_right.
Print Assumptions c69_reflecting_right_content.
Print Assumptions c69_reflecting_right_refuted.
Print Assumptions c69_first_point.
Print Assumptions c69_reflecting_left_refuted.
Print Assumptions c69_periodic.
Print Assumptions c69_periodic_refuted.
