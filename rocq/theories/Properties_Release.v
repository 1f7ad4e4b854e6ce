(** C90: bubbles burst where they reach the surface, and what leaves is booked. *)
From Coq Require Import Reals List Arith Bool Lia Lra.
From Verif Require Import Sums BurstModel BurstProofs Properties_Burst ReleaseModel.
Import ListNotations.
Set Implicit Arguments.
Open Scope R_scope.

(** ** The radius and the chance of a burst *)
Lemma cbrt_pos x : 0 < x -> 0 < cbrt x.
Proof. intros H. unfold cbrt. destruct (Rlt_dec 0 x); [apply exp_pos|contradiction]. Qed.
Lemma cbrt_0 : cbrt 0 = 0.
Proof. unfold cbrt. destruct (Rlt_dec 0 0); [lra|reflexivity]. Qed.
Lemma cbrt_cube x : 0 < x -> cbrt (x * x * x) = x.
Proof.
  intros H. assert (P : 0 < x * x * x) by (repeat apply Rmult_lt_0_compat; assumption). unfold cbrt. destruct (Rlt_dec 0 (x * x * x)) as [_|N]; [|contradiction].
  replace (x * x * x) with (Rpower x 3). 2:{ replace 3 with (1 + 1 + 1) by ring. rewrite !Rpower_plus, Rpower_1 by assumption. reflexivity. }
  rewrite Rpower_mult. replace (3 * (1 / 3)) with 1 by lra. apply Rpower_1. exact H.
Qed.
Lemma cbrt_le x y : 0 <= x <= y -> cbrt x <= cbrt y.
Proof.
  intros [H L]. destruct H as [H|<-].
  - unfold cbrt. destruct (Rlt_dec 0 x); [|contradiction]. destruct (Rlt_dec 0 y); [|lra]. apply Rle_Rpower_l; lra.
  - rewrite cbrt_0. destruct L as [L|<-]; [left; apply cbrt_pos; exact L|rewrite cbrt_0; lra].
Qed.
Lemma sqrt3 : 12 / 7 < sqrt 3 < 7 / 4.
Proof.
  split.
  - rewrite <- (sqrt_square (12 / 7)) by lra. apply sqrt_lt_1; lra.
  - rewrite <- (sqrt_square (7 / 4)) by lra. apply sqrt_lt_1; lra.
Qed.
Lemma pi_bounds : 3 < PI <= 4.
Proof. split; [pose proof PI2_3_2; lra|exact PI_4]. Qed.
(** The radius of a bubble of one vacancy without its offset. *)
Lemma unit_radius a : 0 < a -> 7 / 16 * a < cbrt ((3 * (a * a * a)) / (8 * PI)) <= 1 / 2 * a.
Proof.
  intros H. pose proof pi_bounds as [P1 P2]. assert (A : 0 < a * a * a) by (repeat apply Rmult_lt_0_compat; assumption).
  assert (I : / 4 <= / PI < / 3) by (split; [apply Rinv_le_contravar; lra|apply Rinv_lt_contravar; lra]).
  replace (3 * (a * a * a) / (8 * PI)) with (a * a * a * (3 / 8 * / PI)) by (field; lra). split.
  - apply Rlt_le_trans with (9 / 20 * a); [lra|]. rewrite <- (@cbrt_cube (9 / 20 * a)) by lra. apply cbrt_le. split; [nra|].
    replace (9 / 20 * a * (9 / 20 * a) * (9 / 20 * a)) with (a * a * a * (729 / 8000)) by field. apply Rmult_le_compat_l; lra.
  - rewrite <- (@cbrt_cube (1 / 2 * a)) by lra. apply cbrt_le. split; [apply Rmult_le_pos; lra|].
    replace (1 / 2 * a * (1 / 2 * a) * (1 / 2 * a)) with (a * a * a * (1 / 8)) by field. apply Rmult_le_compat_l; lra.
Qed.
Lemma radius_none a ratio cell : 0 < a -> bubbleRadius a ratio 0 cell < 0.
Proof.
  intros H. unfold bubbleRadius. replace (3 * (a * a * a) * (0 * cell / ratio) / (8 * PI)) with 0 by (unfold Rdiv; ring). rewrite cbrt_0.
  pose proof (unit_radius H) as [U _]. pose proof sqrt3 as [_ S]. nra.
Qed.
Lemma content_pos a ratio density cell : 0 < a -> 0 < ratio -> 0 <= density -> 0 < cell -> 0 <= 3 * (a * a * a) * (density * cell / ratio) / (8 * PI).
Proof.
  intros. pose proof pi_bounds. unfold Rdiv. repeat apply Rmult_le_pos; try lra; left; apply Rinv_0_lt_compat; lra.
Qed.
(** C90: more helium, never a smaller bubble. *)
Theorem c90_more a ratio density density' cell : 0 < a -> 0 < ratio -> 0 < cell -> 0 <= density <= density' ->
  bubbleRadius a ratio density cell <= bubbleRadius a ratio density' cell.
Proof.
  intros Ha Hr Hc [H L]. unfold bubbleRadius. apply Rplus_le_compat_r, Rplus_le_compat_l, cbrt_le. split; [apply content_pos; assumption|].
  pose proof pi_bounds. unfold Rdiv. apply Rmult_le_compat_r; [left; apply Rinv_0_lt_compat; lra|]. apply Rmult_le_compat_l; [repeat apply Rmult_le_pos; lra|].
  apply Rmult_le_compat_r; [left; apply Rinv_0_lt_compat; lra|]. apply Rmult_le_compat_r; lra.
Qed.
(** A burst with the number [t] drawn. *)
Definition bursts (pre tau d r t : R) : Prop := prob pre tau d r > t \/ r > d.
Lemma prob_ratio pre tau d r : d <> 0 -> prob pre tau d r = pre * (r / d) * Rmin 1 (exp (- (d - tau) / (tau * 2))).
Proof. intros H. unfold prob. f_equal. f_equal. field. exact H. Qed.
Lemma damp_pos pre : 0 < Rmin 1 (exp pre).
Proof. apply Rmin_glb_lt; [lra|apply exp_pos]. Qed.
(** C90: a larger bubble bursts if a smaller one does; one which lies deeper only if one which lies less deep does. *)
Theorem c90_monotone pre tau d r r' t : 0 <= pre -> 0 < d -> r <= r' -> bursts pre tau d r t -> bursts pre tau d r' t.
Proof.
  intros Hp Hd Hr [H|H]; [left|right; lra]. rewrite prob_ratio in * by lra. apply Rge_gt_trans with (2 := H). apply Rle_ge, Rmult_le_compat_r; [left; apply damp_pos|].
  apply Rmult_le_compat_l; [exact Hp|]. unfold Rdiv. apply Rmult_le_compat_r; [left; apply Rinv_0_lt_compat; exact Hd|exact Hr].
Qed.
Theorem c90_deeper pre tau d d' r t : 0 <= pre -> 0 < tau -> 0 <= r -> 0 < d <= d' -> bursts pre tau d' r t -> bursts pre tau d r t.
Proof.
  intros Hp Ht Hr [Hd L] [H|H]; [left|right; lra]. rewrite prob_ratio in * by lra. apply Rge_gt_trans with (2 := H). apply Rle_ge.
  apply Rmult_le_compat; [|left; apply damp_pos| |].
  - apply Rmult_le_pos; [exact Hp|]. apply Rmult_le_pos; [exact Hr|left; apply Rinv_0_lt_compat; lra].
  - apply Rmult_le_compat_l; [exact Hp|]. apply Rmult_le_compat_l; [exact Hr|]. apply Rinv_le_contravar; lra.
  - apply Rle_min_compat_l. assert (Q : - (d' - tau) / (tau * 2) <= - (d - tau) / (tau * 2)).
    { unfold Rdiv. apply Rmult_le_compat_r; [left; apply Rinv_0_lt_compat; lra|lra]. }
    destruct Q as [Q|Q]; [left; apply exp_increasing; exact Q|rewrite Q; lra].
Qed.
(** C90: without helium nothing bursts below the surface (random numbers are not negative). *)
Theorem c90_none a ratio cell pre tau d t : 0 < a -> 0 <= pre -> 0 < d -> 0 <= t -> ~ bursts pre tau d (bubbleRadius a ratio 0 cell) t.
Proof.
  intros Ha Hp Hd Ht. pose proof (radius_none ratio cell Ha) as R0. intros [H|H]; [|lra]. rewrite prob_ratio in H by lra.
  assert (Q : pre * (bubbleRadius a ratio 0 cell / d) * Rmin 1 (exp (- (d - tau) / (tau * 2))) <= 0); [|lra].
  pose proof (damp_pos (- (d - tau) / (tau * 2))) as D. assert (I : 0 < / d) by (apply Rinv_0_lt_compat; exact Hd).
  assert (B : bubbleRadius a ratio 0 cell / d <= 0) by (unfold Rdiv; nra). assert (pre * (bubbleRadius a ratio 0 cell / d) <= 0) by nra. nra.
Qed.
(** C90, false of the code: where the left side is not a free surface (offset 0) its first point has a negative depth, and bursts at every step without any helium, whatever is drawn. *)
Theorem c90_surface_refuted (grid : nat -> R) s a ratio density cell pre tau t : 0 < a -> 0 < ratio -> 0 <= density -> 0 < cell ->
  grid (s + 1)%nat - grid s > a / 7 -> bursts pre tau (depth grid s s) (bubbleRadius a ratio density cell) t.
Proof.
  intros Ha Hr Hn Hc Hg. right. pose proof (c90_more Ha Hr Hc (conj (Rle_refl 0) Hn)) as M. unfold depth.
  assert (L : - (a / 14) < bubbleRadius a ratio 0 cell); [|lra].
  unfold bubbleRadius. replace (3 * (a * a * a) * (0 * cell / ratio) / (8 * PI)) with 0 by (unfold Rdiv; ring). rewrite cbrt_0.
  pose proof (unit_radius Ha) as [_ U]. pose proof sqrt3 as [S _]. nra.
Qed.
Example c90_point_ok : depth INR 0 0 = - / 2 /\ bursts 1 10 (depth INR 0 0) (bubbleRadius (3 / 10) 4 0 1) 1 /\ ~ bursts 1 10 (depth INR 0 1) (bubbleRadius (3 / 10) 4 0 1) 0 /\
  bursts 1 10 2 3 5 /\ bursts 1 10 1 3 5.
Proof.
  assert (D0 : depth INR 0 0 = - / 2) by (unfold depth; cbn; lra). assert (D1 : depth INR 0 1 = / 2) by (unfold depth; cbn; lra). split; [exact D0|]. split; [apply c90_surface_refuted; cbn; lra|].
  split; [rewrite D1; apply c90_none; lra|]. assert (B : bursts 1 10 2 3 5) by (right; lra). split; [exact B|]. apply (@c90_deeper 1 10 1 2 3 5); try lra. exact B.
Qed.

(** C90: the depth is counted from the surface: on a grid of equal steps the k-th point behind the surface lies k - 1/2 steps deep; on any grid it is positive behind the surface and grows from point to point. *)
Theorem c90_depth (grid : nat -> R) s xi : (forall i, grid i < grid (i + 1)%nat) ->
  0 < depth grid s (s + 1) /\ depth grid s xi < depth grid s (xi + 1) /\
  (forall h k, (forall i, grid (i + 1)%nat = grid i + h) -> depth grid s (s + k) = (INR k - / 2) * h).
Proof.
  intros G. unfold depth. split; [specialize (G (s + 1)%nat); lra|]. split; [pose proof (G xi); pose proof (G (xi + 1)%nat); lra|].
  intros h k U. assert (W : forall j, grid (s + j)%nat = grid s + INR j * h).
  { induction j as [|j IH]; [rewrite Nat.add_0_r; cbn; lra|]. replace (s + S j)%nat with (s + j + 1)%nat by lia. rewrite U, IH, S_INR. lra. }
  rewrite (U (s + k)%nat), W, (U s). lra.
Qed.
(** C90: the chance of a bubble is the flux times the step times the factor of the options times radius over depth, less by an exponential beyond the depth tau. *)
Theorem c90_chance amplitude dt factor tau d r : 0 < tau -> 0 < d ->
  (d <= tau -> prob (prefactor amplitude dt factor) tau d r = amplitude * dt * factor * (r / d)) /\
  (tau <= d -> prob (prefactor amplitude dt factor) tau d r = amplitude * dt * factor * (r / d) * exp (- ((d - tau) / (2 * tau)))).
Proof.
  intros Ht Hd. rewrite prob_ratio by lra. unfold prefactor. replace (- (d - tau) / (tau * 2)) with (- ((d - tau) / (2 * tau))) by (field; lra).
  assert (I : 0 < / (2 * tau)) by (apply Rinv_0_lt_compat; lra). split; intros H.
  - rewrite Rmin_left; [ring|]. rewrite <- exp_0 at 1. assert (Q : 0 <= - ((d - tau) / (2 * tau))) by (unfold Rdiv; nra). destruct Q as [Q|Q]; [left; apply exp_increasing; exact Q|rewrite <- Q; lra].
  - rewrite Rmin_right; [reflexivity|]. rewrite <- exp_0. assert (Q : - ((d - tau) / (2 * tau)) <= 0) by (unfold Rdiv; nra). destruct Q as [Q|Q]; [left; apply exp_increasing; exact Q|rewrite Q; lra].
Qed.
Example c90_depth_ok : depth INR 2 5 = 5 / 2 /\ prob (prefactor 3 2 5) 10 4 1 = 15 / 2.
Proof.
  split.
  - assert (S1 : forall i, INR (i + 1) = INR i + 1) by (intros i; rewrite plus_INR; cbn; reflexivity). destruct (@c90_depth INR 2 5) as (_ & _ & H); [intros i; rewrite S1; lra|]. specialize (H 1 3%nat S1). cbn [Nat.add] in H. rewrite H. cbn. lra.
  - destruct (@c90_chance 3 2 5 10 4 1) as (H & _); [lra|lra|]. rewrite H; lra.
Qed.

(** ** The points of a process *)
Lemma gt_spec x y : gt x y = true <-> x > y.
Proof. unfold gt. destruct (Rlt_dec y x); split; intros; try lra; try reflexivity; discriminate. Qed.
Section SCAN.
Variable P : Type.
Variables (radius distance probability : P -> R).
Variable draw : nat -> R.
Variable own : P -> bool.
(** C90: in one and two dimensions the points found are those of the process at which the bubble is too large or its chance more than the number drawn there: the k-th point of the process has the
    k-th number. *)
Theorem c90_scan pts n p : In p (scan radius distance probability draw own pts n) <->
  exists k, nth_error (filter own pts) k = Some p /\ (probability p > draw (n + k)%nat \/ radius p > distance p).
Proof.
  revert n. induction pts as [|q pts IH]; intros n; cbn [scan filter].
  - split; [intros []|]. intros (k & H & _). destruct k; discriminate.
  - destruct (own q); [|apply IH]. rewrite in_app_iff, IH. split.
    + intros [H|(k & H & B)].
      * destruct (gt (probability q) (draw n) || gt (radius q) (distance q)) eqn:E; [|destruct H]. destruct H as [<-|[]]. exists 0%nat. split; [reflexivity|]. rewrite Nat.add_0_r.
        apply orb_true_iff in E. rewrite !gt_spec in E. exact E.
      * exists (S k). split; [exact H|]. rewrite Nat.add_succ_r. exact B.
    + intros (k & H & B). destruct k as [|k].
      * cbn in H. injection H as <-. rewrite Nat.add_0_r in B. left. rewrite <- !gt_spec in B. apply orb_true_iff in B. rewrite B. left. reflexivity.
      * right. exists k. split; [exact H|]. rewrite Nat.add_succ_r in B. exact B.
Qed.
(** C90: in three dimensions a number is drawn only for bubbles which are not too large. *)
Theorem c90_scan3 pts n p : In p (scan3 radius distance probability draw own pts n) <->
  (In p pts /\ own p = true /\ radius p > distance p) \/
  exists k, nth_error (filter (fun q => own q && negb (gt (radius q) (distance q))) pts) k = Some p /\ probability p > draw (n + k)%nat.
Proof.
  revert n. induction pts as [|q pts IH]; intros n; cbn [scan3 filter In].
  - split; [intros []|]. intros [([] & _)|(k & H & _)]. destruct k; discriminate.
  - destruct (own q) eqn:Eo; cbn [andb].
    + destruct (gt (radius q) (distance q)) eqn:Eg; cbn [negb].
      * cbn [In]. rewrite IH. apply gt_spec in Eg. split.
        -- intros [<-|[(A & B & C)|H]]; [left|left|right; exact H]; auto.
        -- intros [([<-|A] & B & C)|H]; auto.
      * rewrite in_app_iff, IH. split.
        -- intros [H|[(A & B & C)|(k & H & B)]]; [|left; auto|].
           ++ destruct (gt (probability q) (draw n)) eqn:E; [|destruct H]. destruct H as [<-|[]]. right. exists 0%nat. split; [reflexivity|]. rewrite Nat.add_0_r. apply gt_spec. exact E.
           ++ right. exists (S k). split; [exact H|]. rewrite Nat.add_succ_r. exact B.
        -- intros [([<-|A] & B & C)|(k & H & B)].
           ++ rewrite <- gt_spec in C. congruence.
           ++ right. left. auto.
           ++ destruct k as [|k].
              ** cbn in H. injection H as <-. left. rewrite Nat.add_0_r in B. apply gt_spec in B. rewrite B. left. reflexivity.
              ** right. right. exists k. split; [exact H|]. rewrite Nat.add_succ_r in B. exact B.
    + rewrite IH. split; (intros [H|H]; [left|right; exact H]).
      * tauto.
      * destruct H as ([<-|A] & B & C); [congruence|auto].
Qed.
Lemma scan_in pts n p : In p (scan radius distance probability draw own pts n) -> In p pts /\ own p = true.
Proof. intros H. apply c90_scan in H. destruct H as (k & H & _). apply nth_error_In, filter_In in H. exact H. Qed.
Lemma scan_nodup pts n : NoDup pts -> NoDup (scan radius distance probability draw own pts n).
Proof.
  revert n. induction pts as [|q pts IH]; intros n H; cbn [scan]; [constructor|]. apply NoDup_cons_iff in H. destruct H as (N & H). destruct (own q); [|apply IH; exact H].
  destruct (gt (probability q) (draw n) || gt (radius q) (distance q)); cbn [app]; [|apply IH; exact H]. constructor; [|apply IH; exact H]. intros I. apply scan_in in I. tauto.
Qed.
End SCAN.

(** The points looked at: those between the surface (or the first point inside of it) and the right side. *)
Theorem c90_points Mz My Mx left right s1 s2 xi yj zk :
  (In xi (points1 Mx left right) <-> (left <= xi < Mx - right)%nat) /\
  (In (yj, xi) (points2 My Mx left right s1) <-> (yj < My /\ s1 yj + left <= xi < Mx - right)%nat) /\
  (In (zk, yj, xi) (points3 Mz My Mx left right s2) <-> (zk < Mz /\ yj < My /\ s2 yj zk + left <= xi < Mx - right)%nat).
Proof.
  split; [unfold points1; rewrite in_seq; lia|]. split.
  - unfold points2. rewrite in_flat_map. split.
    + intros (y & Hy & H). apply in_map_iff in H. destruct H as (x & E & H). injection E as -> ->. rewrite in_seq in *. lia.
    + intros (Hy & H). exists yj. split; [apply in_seq; lia|]. apply in_map_iff. exists xi. split; [reflexivity|]. apply in_seq. lia.
  - unfold points3. rewrite in_flat_map. split.
    + intros (z & Hz & H). apply in_flat_map in H. destruct H as (y & Hy & H). apply in_map_iff in H. destruct H as (x & E & H). injection E as -> -> ->. rewrite in_seq in *. lia.
    + intros (Hz & Hy & H). exists zk. split; [apply in_seq; lia|]. apply in_flat_map. exists yj. split; [apply in_seq; lia|]. apply in_map_iff. exists xi. split; [reflexivity|]. apply in_seq. lia.
Qed.
Example c90_points_ok : points2 2 6 1 1 (fun y => y) = [(0, 1); (0, 2); (0, 3); (0, 4); (1, 2); (1, 3); (1, 4)]%nat.
Proof. reflexivity. Qed.
(** C90: in one dimension every process learns that there is a burst somewhere. *)
Theorem c90_flag P (lists : list (list P)) : flag1 lists = 0%nat <-> exists l p, In l lists /\ In p l.
Proof.
  unfold flag1. induction lists as [|l lists IH]; cbn [map fold_right]; [split; [discriminate|intros (l & p & [] & _)]|]. destruct l as [|p l].
  - assert (E : forall n, (Nat.min 1 n = 0 <-> n = 0)%nat) by (intros; lia). rewrite E, IH. split; intros (l & p & H & H').
    + exists l, p. split; [right; exact H|exact H'].
    + destruct H as [<-|H]; [destruct H'|]. exists l, p. auto.
  - split; [|reflexivity]. intros _. exists (p :: l), p. split; left; reflexivity.
Qed.
(** C90: in two dimensions the positions, the same on all processes, are the points at which some process sees a burst; the process which owns the point, and no other, changes it. *)
Theorem c90_owner pts (lists : list (list (nat * nat))) (owns : list (nat * nat -> bool)) : 
  Forall2 (fun own l => forall p, In p l -> In p pts /\ own p = true) owns lists ->
  (forall p, In p (positions2 pts lists) <-> exists l, In l lists /\ In p l) /\
  (forall own p, In own owns -> (In p (updates2 own (positions2 pts lists)) <-> own p = true /\ exists l, In l lists /\ In p l)).
Proof.
  intros F. assert (A : forall p, In p (positions2 pts lists) <-> exists l, In l lists /\ In p l).
  { intros p. unfold positions2. rewrite filter_In, existsb_exists. assert (M : forall l, existsb (pairb p) l = true <-> In p l).
    { intros l. rewrite existsb_exists. unfold pairb. split.
      - intros (q & H & E). apply andb_true_iff in E. destruct E as (E1 & E2). apply Nat.eqb_eq in E1, E2. destruct p, q. cbn in E1, E2. subst. exact H.
      - intros H. exists p. split; [exact H|]. rewrite !Nat.eqb_refl. reflexivity. }
    split.
    - intros (_ & l & Hl & H). exists l. split; [exact Hl|apply M; exact H].
    - intros (l & Hl & H). split; [|exists l; split; [exact Hl|apply M; exact H]]. clear M. revert Hl H. induction F as [|own l0 owns lists Q F IH]; [intros []|]. intros [<-|Hl] H; [exact (proj1 (Q p H))|exact (IH Hl H)]. }
  split; [exact A|]. intros own p _. unfold updates2. rewrite filter_In, A. tauto.
Qed.
Example c90_owner_ok : positions2 (points2 2 6 1 1 (fun y => y)) [[(0, 2)]; [(1, 4); (1, 3)]]%nat = [(0, 2); (1, 3); (1, 4)]%nat /\
  updates2 (fun p => (fst p =? 1)%nat) [(0, 2); (1, 3); (1, 4)]%nat = [(1, 3); (1, 4)]%nat.
Proof. split; reflexivity. Qed.

(** ** What is booked *)
Section POST.
Variable P : Type.
Variable eqb : P -> P -> bool.
Hypothesis Eqb : forall p q, eqb p q = true <-> p = q.
Variable factor : P -> R.
Variables (ng : nat) (findV : Z -> option nat) (cs : list cl).
Hypothesis NET : network ng findV cs.
Definition content (g : nat) (c : nat -> R) : R := total cs (amount g) c.
(** C90: at a burst all the gas of the points leaves, the others are left alone, and for each point its width times its content is counted once. *)
Theorem c90_post positions : forall conc nBurst, NoDup positions -> (forall p, In p positions -> flat cs (conc p)) ->
  exists conc' nBurst', post eqb factor findV cs positions conc nBurst = Some (conc', nBurst') /\
    (forall g, (g < ng)%nat -> nBurst' g = nBurst g + Rsum positions (fun p => factor p * content g (conc p))) /\
    (forall g p, (g < ng)%nat -> In p positions -> content g (conc' p) = 0) /\
    (forall p, ~ In p positions -> conc' p = conc p).
Proof.
  induction positions as [|q l IH]; intros conc nBurst ND F; cbn [post].
  - exists conc, nBurst. split; [reflexivity|]. split; [intros; cbn; ring|]. split; [intros g p _ []|reflexivity].
  - apply NoDup_cons_iff in ND. destruct ND as (N & ND). destruct (@c20_burst_partial (factor q) ng findV cs (St (conc q) nBurst) NET (F q (or_introl eq_refl))) as (s & -> & G & _).
    cbn [sol burst] in G. destruct (IH (fun p' => if eqb q p' then sol s else conc p') (burst s) ND) as (conc' & b' & E & A & B & C).
    { intros p H. destruct (eqb q p) eqn:Q; [apply Eqb in Q; subst; contradiction|]. apply F. right. exact H. }
    exists conc', b'. split; [exact E|]. split; [|split].
    + intros g Hg. rewrite (A g Hg), (proj1 (G g Hg)). cbn [Rsum].
      rewrite (@Rsum_ext _ l (fun p => factor p * content g (if eqb q p then sol s else conc p)) (fun p => factor p * content g (conc p))); [unfold content; ring|].
      intros p H. destruct (eqb q p) eqn:Q; [apply Eqb in Q; subst; contradiction|reflexivity].
    + intros g p Hg [<-|H]; [|apply B; assumption]. rewrite (C q N). destruct (eqb q q) eqn:Q; [exact (proj2 (G g Hg))|]. rewrite (proj2 (Eqb q q) eq_refl) in Q. discriminate.
    + intros p H. rewrite C by (intros I; apply H; right; exact I). destruct (eqb q p) eqn:Q; [|reflexivity]. apply Eqb in Q. subst. exfalso. apply H. left. reflexivity.
Qed.
End POST.

Section BALANCE.
Variables (ng : nat) (findV : Z -> option nat) (cs : list cl).
Hypothesis NET : network ng findV cs.
Lemma Rsum_part (pts l : list nat) (f : nat -> R) : NoDup pts -> NoDup l -> incl l pts -> (forall p, In p pts -> ~ In p l -> f p = 0) -> Rsum pts f = Rsum l f.
Proof.
  revert l. induction pts as [|p pts IH]; intros l N1 N2 I Z.
  - destruct l as [|q l]; [reflexivity|]. destruct (I q (or_introl eq_refl)).
  - apply NoDup_cons_iff in N1. destruct N1 as (N0 & N1). cbn [Rsum]. destruct (in_dec Nat.eq_dec p l) as [H|H].
    + apply in_split in H. destruct H as (u & v & ->). rewrite (IH (u ++ v)).
      * rewrite !Rsum_app. cbn [Rsum]. ring.
      * exact N1.
      * apply NoDup_remove_1 in N2. exact N2.
      * intros q Hq. assert (q <> p) by (intros ->; apply NoDup_remove_2 in N2; contradiction). destruct (I q) as [E|E]; [|congruence|exact E]. apply in_app_iff in Hq. apply in_app_iff. cbn [In]. tauto.
      * intros q Hq Hn. apply Z; [right; exact Hq|]. intros H. apply Hn. apply in_app_iff in H. apply in_app_iff. cbn [In] in H. assert (q <> p) by (intros ->; contradiction). intuition congruence.
    + rewrite (Z p (or_introl eq_refl) H), (IH l); [ring|exact N1|exact N2| |].
      * intros q Hq. destruct (I q Hq) as [<-|E]; [contradiction|exact E].
      * intros q Hq Hn. apply Z; [right; exact Hq|exact Hn].
Qed.
(** C90: in one dimension, on a grid of equal steps, what is booked by a burst is what the content of the tables loses. *)
Theorem c90_balance (grid : nat -> R) h pts positions conc nBurst : (forall i, grid (i + 1)%nat - grid i = h) -> NoDup pts -> NoDup positions -> incl positions pts ->
  (forall p, In p positions -> flat cs (conc p)) ->
  exists conc' nBurst', post Nat.eqb (burstWidth grid) findV cs positions conc nBurst = Some (conc', nBurst') /\
    forall g, (g < ng)%nat -> nBurst' g + Rsum pts (fun xi => contentWidth grid xi * content cs g (conc' xi)) = nBurst g + Rsum pts (fun xi => contentWidth grid xi * content cs g (conc xi)).
Proof.
  intros U N1 N2 I F. destruct (@c90_post nat Nat.eqb Nat.eqb_eq (burstWidth grid) ng findV cs NET positions conc nBurst N2 F) as (conc' & b' & E & A & B & C).
  exists conc', b'. split; [exact E|]. intros g Hg. rewrite (A g Hg).
  assert (W : forall xi, burstWidth grid xi = h).
  { intros xi. unfold burstWidth. destruct (Nat.ltb_spec xi 1) as [L|L]; [apply U|]. pose proof (U xi) as U1. pose proof (U (xi - 1)%nat) as U2. replace (xi - 1 + 1)%nat with xi in U2 by lia. lra. }
  assert (D : Rsum pts (fun xi => contentWidth grid xi * content cs g (conc xi) - contentWidth grid xi * content cs g (conc' xi)) =
              Rsum positions (fun xi => contentWidth grid xi * content cs g (conc xi) - contentWidth grid xi * content cs g (conc' xi))).
  { apply Rsum_part; [exact N1|exact N2|exact I|]. intros p Hp Hn. rewrite (C p Hn). ring. }
  rewrite Rsum_minus in D. rewrite (@Rsum_ext _ positions (fun p => burstWidth grid p * content cs g (conc p)) (fun xi => contentWidth grid xi * content cs g (conc xi) - contentWidth grid xi * content cs g (conc' xi))); [lra|].
  intros p Hp. rewrite (B g p Hg Hp), W. unfold contentWidth. rewrite U. ring.
Qed.
(** C90, false of the code: where the step changes from [u] to [v] the booked amount is that of a cell of the mean width, the content loses that of a cell of width [v]. *)
Theorem c90_width_refuted (grid : nat -> R) xi conc nBurst : (1 <= xi)%nat -> flat cs (conc xi) ->
  exists conc' nBurst', post Nat.eqb (burstWidth grid) findV cs [xi] conc nBurst = Some (conc', nBurst') /\
    forall g, (g < ng)%nat -> (nBurst' g - nBurst g) - contentWidth grid xi * (content cs g (conc xi) - content cs g (conc' xi)) =
      ((grid xi - grid (xi - 1)%nat) - (grid (xi + 1)%nat - grid xi)) / 2 * content cs g (conc xi).
Proof.
  intros H F. destruct (@c90_post nat Nat.eqb Nat.eqb_eq (burstWidth grid) ng findV cs NET [xi] conc nBurst) as (conc' & b' & E & A & B & C).
  - constructor; [intros []|constructor].
  - intros p [<-|[]]. exact F.
  - exists conc', b'. split; [exact E|]. intros g Hg. rewrite (A g Hg), (B g xi Hg (or_introl eq_refl)). cbn [Rsum]. unfold burstWidth, contentWidth. destruct (Nat.ltb_spec xi 1); [lia|]. field.
Qed.
(** C90, false of the code: in two and three dimensions all the gas of the points leaves and nothing is booked. *)
Theorem c90_unbooked_refuted P (eqb : P -> P -> bool) positions conc before counts : (forall p q, eqb p q = true <-> p = q) -> NoDup positions -> (forall p, In p positions -> flat cs (conc p)) ->
  exists conc' nBurst', post eqb (fun _ => 0) findV cs positions conc (fun _ => 0) = Some (conc', nBurst') /\
    (forall g p, (g < ng)%nat -> In p positions -> content cs g (conc' p) = 0) /\ (forall g, (g < ng)%nat -> booked before [nBurst'] g = before g) /\ booked3 before counts = before.
Proof.
  intros Q N F. destruct (@c90_post P eqb Q (fun _ => 0) ng findV cs NET positions conc (fun _ => 0) N F) as (conc' & b' & E & A & B & C).
  exists conc', b'. split; [exact E|]. split; [exact B|]. split; [|reflexivity]. intros g Hg. unfold booked. cbn [fold_right]. rewrite (A g Hg). rewrite (@Rsum_zero _ positions); [ring|]. intros; ring.
Qed.
(** C90: in one dimension the counts of the processes are added up once. *)
Theorem c90_sum before counts g : booked before counts g = before g + Rsum counts (fun c => c g).
Proof. unfold booked. f_equal. induction counts as [|c counts IH]; [reflexivity|]. cbn [fold_right Rsum]. rewrite IH. reflexivity. Qed.
End BALANCE.

(** Helium, V_1 ... of C20, with 69 helium at point 2 of the grid 0, 1, 2, 4: width 1.5 is booked, width 2 is lost. *)
Definition exGrid (i : nat) : R := match i with 0%nat => 0 | 1%nat => 1 | 2%nat => 2 | _ => 4 end.
Example c90_width_refuted_ok : exists conc' b', post Nat.eqb (burstWidth exGrid) exFindV exNet [2%nat] (fun _ => exSol) (fun _ => 0) = Some (conc', b') /\ b' 0%nat = 207 / 2 /\
  contentWidth exGrid 2 * (content exNet 0 exSol - content exNet 0 (conc' 2%nat)) = 138.
Proof.
  destruct (@c90_width_refuted 1 exFindV exNet (proj1 c20_example_network) exGrid 2 (fun _ => exSol) (fun _ => 0)) as (conc' & b' & E & A); [lia|exact (proj2 c20_example_network)|].
  destruct (@c90_post nat Nat.eqb Nat.eqb_eq (burstWidth exGrid) 1 exFindV exNet (proj1 c20_example_network) [2%nat] (fun _ => exSol) (fun _ => 0)) as (conc2 & b2 & E2 & A2 & B2 & _).
  - constructor; [intros []|constructor].
  - intros p _. exact (proj2 c20_example_network).
  - rewrite E2 in E. injection E as <- <-. exists conc2, b2. split; [exact E2|]. rewrite (A2 0%nat) by lia. rewrite (B2 0%nat 2%nat) by (try lia; left; reflexivity).
    assert (T : content exNet 0 exSol = 69).
    { destruct (@c20_burst_partial 1 1 exFindV exNet (St exSol (fun _ => 0)) (proj1 c20_example_network) (proj2 c20_example_network)) as (s' & F & G & _).
      destruct c20_example as (s2 & F2 & G2 & _). rewrite F in F2. injection F2 as <-. destruct (G 0%nat) as (G1 & _); [lia|]. rewrite G2 in G1. cbn [burst sol] in G1. unfold content. lra. }
    cbn [Rsum]. rewrite T. unfold burstWidth, contentWidth, exGrid. cbn. split; lra.
Qed.
Example c90_balance_ok : exists conc' b', post Nat.eqb (burstWidth INR) exFindV exNet [2%nat; 1%nat] (fun _ => exSol) (fun _ => 0) = Some (conc', b') /\
  forall g, (g < 1)%nat -> b' g + Rsum (points1 5 1 1) (fun xi => contentWidth INR xi * content exNet g (conc' xi)) = 0 + Rsum (points1 5 1 1) (fun xi => contentWidth INR xi * content exNet g exSol).
Proof.
  apply (@c90_balance 1 exFindV exNet (proj1 c20_example_network) INR 1 (points1 5 1 1) [2; 1]%nat (fun _ => exSol) (fun _ => 0)).
  - intros i. rewrite plus_INR. cbn. ring.
  - apply seq_NoDup.
  - constructor; [intros [H|[]]; discriminate|]. constructor; [intros []|constructor].
  - intros p [<-|[<-|[]]]; apply in_seq; lia.
  - intros p _. exact (proj2 c20_example_network).
Qed.
Example c90_scan_ok : scan (fun p => INR p) (fun p => 3 / 2) (fun p => 1 / 2) (fun n => INR n) (fun p => (p <? 3)%nat) [0; 1; 2; 3]%nat 0 = [0; 2]%nat /\
  scan3 (fun p => INR p) (fun p => 3 / 2) (fun p => 1 / 2) (fun n => INR n) (fun p => (p <? 3)%nat) [2; 1; 0; 3]%nat 0 = [2; 1]%nat.
Proof.
  split; cbn; unfold gt; repeat (match goal with |- context [Rlt_dec ?a ?b] => destruct (Rlt_dec a b); cbn; try lra end); reflexivity.
Qed.

Print Assumptions c90_more.
Print Assumptions c90_monotone.
Print Assumptions c90_deeper.
Print Assumptions c90_none.
Print Assumptions c90_surface_refuted.
Print Assumptions c90_scan.
Print Assumptions c90_scan3.
Print Assumptions c90_points.
Print Assumptions c90_flag.
Print Assumptions c90_owner.
Print Assumptions c90_post.
Print Assumptions c90_balance.
Print Assumptions c90_width_refuted.
Print Assumptions c90_unbooked_refuted.
Print Assumptions c90_sum.
Print Assumptions c90_depth.
Print Assumptions c90_chance.
