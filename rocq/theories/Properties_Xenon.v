(** C75: the xenon at the grain boundaries in one dimension. *)
From Verif Require Import XenonModel RetentionProofs Solver1DProofs StencilProofs.
From Verif Require Properties_Retention.
Open Scope R_scope.

(** ** Reference *)
(** The processes own the points 0, ..., nX - 1 in order, each at least one. *)
Definition cover (procs : list proc) (nX : nat) : Prop :=
  flat_map (fun p => seq (xs p) (xm p)) procs = seq 0 nX /\ forall p, In p procs -> (0 < xm p)%nat.
(** The same locations are given to every process. *)
Definition parts (procs : list proc) (locs : list nat) : list (proc * list nat) :=
  map (fun p => (p, setLocations p locs)) procs.
Definition width (grid : nat -> R) (i : nat) : R := grid (S i) - grid i.
(** The xenon which arrives at the boundary [g] per time and volume. *)
Definition xeRate (origin : nat -> list Z) (grid : nat -> R) (dif : list nat) (o : out) (g : nat) : R :=
  let hl := (grid (g + 1)%nat - grid (g - 1)%nat) / 2 in
  let hr := (grid (g + 2)%nat - grid g) / 2 in
  Rsum dif (fun l => Properties_Retention.amount origin l 0 *
    (2 / (hl + hr) * (oD o l (g - 1)%nat * oC o l (g - 1)%nat / hl + oD o l (g + 1)%nat * oC o l (g + 1)%nat / hr))).

(** ** Sums over the processes *)
Lemma local_filter p locs : (0 < xm p)%nat -> setLocations p locs = filter (owns p) locs.
Proof.
  intros H. unfold setLocations.
  assert (G : forall l a, fold_left (setLocation p) l a = a ++ filter (owns p) l).
  { induction l as [|i l IH]; intros a; cbn [fold_left filter]; [rewrite app_nil_r; reflexivity|].
    rewrite IH. unfold setLocation, owns. replace (Nat.max (xm p) 1) with (xm p) by lia.
    destruct ((xs p <=? i)%nat && (i <? xs p + xm p)%nat)%bool; [rewrite <- app_assoc|]; reflexivity. }
  rewrite G. reflexivity.
Qed.
Lemma owner_sum procs nX g x : cover procs nX -> (g < nX)%nat ->
  Rsum procs (fun p => if owns p g then x else 0) = x.
Proof.
  intros [Hc _] Hg. destruct (@one_owner procs g) as (l1 & p & l2 & -> & Hp & H1 & H2).
  - change (NoDup (flat_map (fun p => seq (xs p) (xm p)) procs)). rewrite Hc. apply seq_NoDup.
  - change (In g (flat_map (fun p => seq (xs p) (xm p)) procs)). rewrite Hc. apply in_seq. lia.
  - rewrite Rsum_app. cbn [Rsum]. rewrite Hp.
    rewrite (Rsum_zero l1), (Rsum_zero l2); [lra| |]; intros q Hq; [rewrite H2|rewrite H1]; auto.
Qed.
Lemma the_owner procs nX g : cover procs nX -> (g < nX)%nat -> exists p, In p procs /\ owns p g = true.
Proof.
  intros [Hc _] Hg. assert (H : In g (flat_map (fun p => seq (xs p) (xm p)) procs)) by (rewrite Hc; apply in_seq; lia).
  apply in_flat_map in H. destruct H as (p & Hp & Hi). exists p. split; auto. apply owns_In. exact Hi.
Qed.
Lemma fold_plus l : forall a, fold_left Rplus l a = a + Rsum l (fun x => x).
Proof. induction l as [|x l IH]; intros a; cbn [fold_left Rsum]; [lra|]. rewrite IH. lra. Qed.

Section FLAT.
Variables (nX : nat) (procs : list proc) (locs : list nat).
Hypothesis cov : cover procs nX.
(** Folds over the processes and their locations as folds over one list. *)
Definition flat : list nat := flat_map (fun p => filter (owns p) locs) procs.
Lemma amounts_flat dt v a :
  fold_left (fun a pg => gbAmounts (fst pg) (snd pg) dt v a) (parts procs locs) a =
  fold_left (fun a g => upd a g (a g + v g * dt)) flat a.
Proof using cov.
  unfold flat, parts. destruct cov as [_ Hm]. revert Hm a. generalize procs.
  induction procs0 as [|p q IH]; intros Hm a; cbn [map fold_left flat_map fst snd]; auto.
  rewrite fold_left_app, IH by (intros; apply Hm; right; auto). f_equal.
  rewrite local_filter by (apply Hm; left; auto). unfold gbAmounts.
  assert (G : forall l a, (forall g, In g l -> owns p g = true) ->
    fold_left (fun a g => if owns p g then upd a g (a g + v g * dt) else a) l a =
    fold_left (fun a g => upd a g (a g + v g * dt)) l a).
  { induction l as [|g l IHl]; intros b H; cbn [fold_left]; auto. rewrite (H g) by (left; auto).
    apply IHl. intros; apply H; right; auto. }
  apply G. intros g Hg. apply filter_In in Hg. tauto.
Qed.
Lemma add_fold x L : forall a g,
  fold_left (fun a g => upd a g (a g + x g)) L a g = a g + INR (count_occ Nat.eq_dec L g) * x g.
Proof using.
  induction L as [|k L IH]; intros a g; cbn [fold_left count_occ]; [cbn [INR]; lra|].
  rewrite IH. unfold upd. destruct (Nat.eq_dec k g) as [->|N].
  - rewrite Nat.eqb_refl, S_INR. lra.
  - destruct (Nat.eqb_spec g k); [congruence|lra].
Qed.
Lemma count_flat g : (g < nX)%nat -> count_occ Nat.eq_dec flat g = count_occ Nat.eq_dec locs g.
Proof using cov.
  intros Hg. apply INR_eq. unfold flat.
  assert (E : forall l, INR (count_occ Nat.eq_dec (flat_map (fun p => filter (owns p) locs) l) g) =
    Rsum l (fun p => if owns p g then INR (count_occ Nat.eq_dec locs g) else 0)).
  { induction l as [|p l IH]; cbn [flat_map Rsum]; [reflexivity|]. rewrite count_occ_app, plus_INR, IH. f_equal.
    clear. induction locs as [|k r IH]; cbn [filter]; [destruct (owns p g); reflexivity|].
    destruct (owns p k) eqn:E; cbn [count_occ]; destruct (Nat.eq_dec k g) as [->|N].
    - rewrite E in *. rewrite !S_INR, IH. reflexivity.
    - exact IH.
    - rewrite E in *. exact IH.
    - exact IH. }
  rewrite E. apply (owner_sum procs nX); auto.
Qed.
End FLAT.

Section RUN.
Variables (ns : nat) (origin : nat -> list Z) (grid : nat -> R) (nX : nat) (dif : list nat).
Variables (procs : list proc) (locs : list nat).
Hypothesis cov : cover procs nX.
Hypothesis ins : forall g, In g locs -> (1 <= g)%nat /\ (g + 1 < nX)%nat.

Lemma gbSum_sum p gb v : gbSum grid p gb v = Rsum gb (fun g => if owns p g then v g * width grid g else 0).
Proof using.
  unfold gbSum. assert (G : forall l a, fold_left (fun a g => if owns p g then a + v g * (grid (g + 1)%nat - grid g) else a) l a =
    a + Rsum l (fun g => if owns p g then v g * width grid g else 0)).
  { induction l as [|g l IH]; intros a; cbn [fold_left Rsum]; [lra|]. rewrite IH. unfold width.
    replace (S g) with (g + 1)%nat by lia. destruct (owns p g); lra. }
  rewrite G. lra.
Qed.
Lemma sum_all v : fold_left Rplus (map (fun pg => gbSum grid (fst pg) (snd pg) v) (parts procs locs)) 0 =
  Rsum locs (fun g => v g * width grid g).
Proof using cov ins.
  rewrite fold_plus, Rplus_0_l. unfold parts. rewrite map_map, Rsum_map. cbn [fst snd].
  rewrite (Rsum_ext procs _ (fun p => Rsum locs (fun g => if owns p g then v g * width grid g else 0))).
  - rewrite Rsum_swap. apply Rsum_ext. intros g Hg. apply (owner_sum procs nX); auto. destruct (ins g Hg). lia.
  - intros p Hp. rewrite gbSum_sum, local_filter by (apply cov; auto). rewrite Rsum_filter.
    apply Rsum_ext. intros g _. destruct (owns p g); reflexivity.
Qed.

Lemma fluxes_in o v g (rate : nat -> R) :
  (forall p g, In g locs -> owns p g = true -> gbRate ns origin grid nX dif p o g = rate g) ->
  fold_left (fun f pg => gbFluxes ns origin grid nX dif (fst pg) (snd pg) o f) (parts procs locs) v g =
  if in_dec Nat.eq_dec g locs then rate g else v g.
Proof using cov ins.
  intros Hr.
  assert (A : forall l v, fold_left (fun f g => upd f g (rate g)) l v g = if in_dec Nat.eq_dec g l then rate g else v g).
  { induction l as [|k l IH]; intros w; cbn [fold_left]; [reflexivity|]. rewrite IH. unfold upd.
    destruct (in_dec Nat.eq_dec g l) as [I|I]; destruct (in_dec Nat.eq_dec g (k :: l)) as [J|J]; auto.
    - destruct J. right; auto.
    - destruct (Nat.eqb_spec g k) as [->|N]; auto. destruct J as [->|J]; [congruence|contradiction].
    - destruct (Nat.eqb_spec g k) as [->|N]; auto. destruct J. left; auto. }
  assert (B : fold_left (fun f pg => gbFluxes ns origin grid nX dif (fst pg) (snd pg) o f) (parts procs locs) v =
              fold_left (fun f g => upd f g (rate g)) (flat procs locs) v).
  { unfold flat, parts. destruct cov as [_ Hm]. clear A. revert Hm v. generalize procs.
    induction procs0 as [|p q IH]; intros Hm v; cbn [map fold_left flat_map fst snd]; auto.
    rewrite fold_left_app, IH by (intros; apply Hm; right; auto). f_equal.
    rewrite local_filter by (apply Hm; left; auto). unfold gbFluxes.
    assert (G : forall l a, (forall g, In g l -> In g locs /\ owns p g = true) ->
      fold_left (fun f g => if owns p g then upd f g (gbRate ns origin grid nX dif p o g) else f) l a =
      fold_left (fun f g => upd f g (rate g)) l a).
    { induction l as [|k l IHl]; intros b H; cbn [fold_left]; auto. destruct (H k (or_introl eq_refl)) as [H1 H2].
      rewrite H2, Hr by auto. apply IHl. intros; apply H; right; auto. }
    apply G. intros k Hk. apply filter_In in Hk. tauto. }
  rewrite B, A. destruct (in_dec Nat.eq_dec g (flat procs locs)) as [I|I]; destruct (in_dec Nat.eq_dec g locs) as [J|J]; auto; exfalso.
  - apply J. unfold flat in I. apply in_flat_map in I. destruct I as (p & _ & I). apply filter_In in I. tauto.
  - apply I. destruct (ins g J) as [_ Hx]. destruct (the_owner procs nX g cov ltac:(lia)) as (p & Hp & Ho).
    apply in_flat_map. exists p. split; auto. apply filter_In. auto.
Qed.
End RUN.

(** ** The rate of one boundary *)
Theorem c75_flux ns origin grid nX dif p o g :
  (forall l, In l dif -> Properties_Retention.pure ns origin l) -> (forall i, grid i < grid (S i)) ->
  (1 <= g)%nat -> (g < nX)%nat -> owns p g = true ->
  gbRate ns origin grid nX dif p o g = xeRate origin grid dif o g.
Proof.
  intros Hp Hg H1 H2 Ho. unfold owns in Ho. apply andb_prop in Ho. destruct Ho as [Ho _]. apply Nat.leb_le in Ho.
  unfold gbRate. rewrite !diff_pure by exact Hp. rewrite Rplus_0_l, <- Rsum_plus. unfold xeRate. apply Rsum_ext. intros l _.
  unfold stored. replace (xs p + (g - 1 + 1 - xs p) - 1)%nat with (g - 1)%nat by lia.
  replace (xs p + (g + 1 + 1 - xs p) - 1)%nat with (g + 1)%nat by lia.
  unfold factor, hxLeft, hxRight. destruct (Nat.leb_spec 1 g); [|lia]. destruct (Nat.ltb_spec g nX); [|lia].
  unfold Properties_Retention.amount, RetentionProofs.amount.
  pose proof (Hg (g - 1)%nat) as A. pose proof (Hg g) as B. pose proof (Hg (S g)) as C.
  replace (S (g - 1)) with g in A by lia. replace (S (S g)) with (g + 2)%nat in C by lia. replace (S g) with (g + 1)%nat in * by lia.
  field. repeat split; lra.
Qed.
(** It is what diffusion would add at the boundary, were the point not left out. *)
Theorem c75_stencil origin grid nX dif o g :
  (forall i, grid i < grid (S i)) -> (1 <= g)%nat -> (g < nX)%nat ->
  (forall l, In l dif -> oC o l g = 0 /\ oD o l (g - 1)%nat = oD o l g /\ oD o l (g + 1)%nat = oD o l g) ->
  xeRate origin grid dif o g =
  Rsum dif (fun l => Properties_Retention.amount origin l 0 * diffAt grid nX (oD o l) (fun _ => 1) (oC o l) g).
Proof.
  intros Hg H1 H2 H. unfold xeRate. apply Rsum_ext. intros l Hl. destruct (H l Hl) as (C0 & Dl_ & Dr_). f_equal.
  unfold diffAt, diff1, around, hxLeft, hxRight. cbn [hl hr Dl Dm Dr].
  destruct (Nat.leb_spec 1 g); [|lia]. destruct (Nat.ltb_spec g nX); [|lia]. rewrite C0, Dl_, Dr_.
  pose proof (Hg (g - 1)%nat) as A. pose proof (Hg g) as B. pose proof (Hg (S g)) as C.
  replace (S (g - 1)) with g in A by lia. replace (S (S g)) with (g + 2)%nat in C by lia. replace (S g) with (g + 1)%nat in * by lia.
  field. repeat split; lra.
Qed.

(** ** The transport balance: with a uniform grid and temperature diffusion takes from the
    content what goes through the two sides and what arrives at the boundaries. *)
Theorem c75_balance ns origin g0 h nX dif locs o :
  let grid := fun i => g0 + INR i * h in
  0 < h -> (3 <= nX)%nat -> NoDup locs -> (forall g, In g locs -> (1 <= g)%nat /\ (g + 1 < nX)%nat) ->
  (forall l, In l dif -> Properties_Retention.pure ns origin l) ->
  (forall l i, oD o l i = oD o l 0%nat) -> (forall i, oT o i = oT o 0%nat) -> 0 < oT o 0%nat ->
  (forall l, oC o l 0%nat = 0) -> (forall l, oC o l (nX - 1)%nat = 0) ->
  (forall l g, In g locs -> oC o l g = 0) ->
  forall p q, owns p 1 = true -> owns q (nX - 2) = true ->
  Rsum (seq 0 nX) (fun xi => width grid xi *
    Rsum dif (fun l => Properties_Retention.amount origin l 0 * diffRate grid nX 1 1 locs (oD o l) (fun _ => 1) (oC o l) xi)) =
  - (surfFlux ns origin grid nX dif [] 0 p o 0 + bulkFlux ns origin grid nX dif q o 0)
  - Rsum locs (fun g => width grid g * xeRate origin grid dif o g).
Proof.
  intros grid Hh Hn Hd Hin Hp HD HT HT0 C0 C1 Cg p q Ho Hq.
  assert (Hg : forall i, grid i < grid (S i)) by (intros i; unfold grid; rewrite S_INR; nra).
  set (st := fun xi => width grid xi * Rsum dif (fun l => Properties_Retention.amount origin l 0 * diffAt grid nX (oD o l) (fun _ => 1) (oC o l) xi)).
  pose proof (Properties_Retention.c68_rate ns origin g0 h nX dif [] 0 o 0 Hh Hn ltac:(lra) Hp ltac:(intros ? []) HD HT HT0 C0 C1 p q Ho Hq) as R.
  cbv zeta in R. fold grid in R.
  rewrite (Rsum_ext _ _ st) in R by (intros xi _; cbn [Rsum]; unfold st, width, grid; rewrite Rplus_0_r; reflexivity).
  rewrite <- R. clear R.
  (* the sum over all points *)
  replace nX with (1 + (nX - 2) + 1)%nat at 1 by lia. rewrite seq_band, !Rsum_app.
  assert (Z0 : forall xi, xi = 0%nat \/ xi = (nX - 1)%nat \/ In xi locs ->
    width grid xi * Rsum dif (fun l => Properties_Retention.amount origin l 0 * diffRate grid nX 1 1 locs (oD o l) (fun _ => 1) (oC o l) xi) = 0).
  { intros xi H. rewrite (Rsum_zero dif); [ring|]. intros l _.
    assert (E : (skipped nX 1 1 locs xi || (xi =? 0)%nat)%bool = true).
    { unfold skipped. destruct H as [->|[->|H]].
      - reflexivity.
      - destruct (Nat.ltb_spec (nX - 1 - 1) (nX - 1)); [|lia]. rewrite Bool.orb_true_r. reflexivity.
      - replace (existsb (Nat.eqb xi) locs) with true; [rewrite Bool.orb_true_r; reflexivity|].
        symmetry. apply existsb_exists. exists xi. rewrite Nat.eqb_refl. auto. }
    unfold diffRate. rewrite E. ring. }
  rewrite (Rsum_zero (seq 0 1)).
  2:{ intros xi Hx. apply Z0. apply in_seq in Hx. lia. }
  rewrite (Rsum_zero (seq (1 + (nX - 2)) 1)).
  2:{ intros xi Hx. apply Z0. apply in_seq in Hx. lia. }
  rewrite Rplus_0_l, Rplus_0_r.
  rewrite (Rsum_ext (seq 1 (nX - 2)) _ (fun xi => st xi - if in_dec Nat.eq_dec xi locs then st xi else 0)).
  2:{ intros xi Hx. apply in_seq in Hx. destruct (in_dec Nat.eq_dec xi locs) as [I|I].
      - rewrite Z0 by auto. lra.
      - unfold st. rewrite Rminus_0_r. f_equal. apply Rsum_ext. intros l _. f_equal. unfold diffRate, skipped.
        destruct (Nat.ltb_spec xi 1); [lia|]. destruct (Nat.ltb_spec (nX - 1 - 1) xi); [lia|]. cbn [orb].
        replace (existsb (Nat.eqb xi) locs) with false.
        + destruct (Nat.eqb_spec xi 0); [lia|reflexivity].
        + symmetry. apply Bool.not_true_is_false. intros E. apply existsb_exists in E. destruct E as (y & Hy & E).
          apply Nat.eqb_eq in E. subst y. contradiction. }
  rewrite Rsum_minus. f_equal.
  (* the points of the boundaries *)
  transitivity (Rsum locs st).
  - assert (Hi : forall g, In g locs -> In g (seq 1 (nX - 2))).
    { intros g H. apply in_seq. destruct (Hin g H). lia. }
    clear - Hd Hi. revert Hd Hi. generalize (seq_NoDup (nX - 2) 1). generalize (seq 1 (nX - 2)). intros l Hl Hd Hi.
    rewrite (Rsum_ext l _ (fun xi => Rsum locs (fun g => if Nat.eq_dec g xi then st g else 0))).
    + rewrite Rsum_swap. apply Rsum_ext. intros g Hg. rewrite (@Rsum_single _ l _ g); auto.
      * destruct (Nat.eq_dec g g); [reflexivity|congruence].
      * intros x _ N. destruct (Nat.eq_dec g x); [congruence|reflexivity].
    + intros xi _. destruct (in_dec Nat.eq_dec xi locs) as [I|I].
      * rewrite (@Rsum_single _ locs _ xi); auto.
        -- destruct (Nat.eq_dec xi xi); [reflexivity|congruence].
        -- intros x _ N. destruct (Nat.eq_dec x xi); [congruence|reflexivity].
      * symmetry. apply Rsum_zero. intros x Hx. destruct (Nat.eq_dec x xi); [congruence|reflexivity].
  - apply Rsum_ext. intros g H. destruct (Hin g H). unfold st. f_equal. symmetry. apply c75_stencil; auto; [lia|].
    intros l _. rewrite (HD l (g - 1)%nat), (HD l (g + 1)%nat), (HD l g), (Cg l g H). auto.
Qed.

(** ** The counters over a run *)
Section COUNT.
Variables (ns : nat) (origin : nat -> list Z) (grid : nat -> R) (nX : nat) (dif : list nat).
Variables (procs : list proc) (locs : list nat).
Hypothesis cov : cover procs nX.
Hypothesis ins : forall g, In g locs -> (1 <= g)%nat /\ (g + 1 < nX)%nat.
Hypothesis mono : forall i, grid i < grid (S i).
Hypothesis pur : forall l, In l dif -> Properties_Retention.pure ns origin l.

(** Whatever the partition, the amount grows in every step by its length times the rates
    at its beginning. *)
Theorem c75_accumulated os : forall st,
  nXe (xenonRun ns origin grid nX dif (parts procs locs) os st) = nXe st +
  match os with
  | [] => 0
  | o :: r => odt o * Rsum locs (fun g => width grid g * prv st g) +
              Rsum (combine os r) (fun oo => odt (snd oo) * Rsum locs (fun g => width grid g * xeRate origin grid dif (fst oo) g))
  end.
Proof using cov ins mono pur.
  induction os as [|o r IH]; intros st; cbn [xenonRun]; [lra|]. rewrite IH. cbn [nXe xenonAt].
  rewrite (sum_all grid nX procs locs cov ins).
  rewrite (Rsum_ext locs (fun g => prv st g * width grid g) (fun g => width grid g * prv st g)) by (intros; ring).
  destruct r as [|o' r]; [cbn [combine Rsum]; lra|].
  change (combine (o :: o' :: r) (o' :: r)) with ((o, o') :: combine (o' :: r) r). cbn [Rsum fst snd].
  rewrite (Rsum_ext locs (fun g => width grid g * prv (xenonAt ns origin grid nX dif (parts procs locs) o st) g)
                         (fun g => width grid g * xeRate origin grid dif o g)); [lra|].
  intros g Hg. f_equal. cbn [prv xenonAt].
  rewrite (fluxes_in ns origin grid nX dif procs locs cov ins o (prv st) g (xeRate origin grid dif o)).
  - destruct (in_dec Nat.eq_dec g locs); [reflexivity|contradiction].
  - intros p k Hk Ho. destruct (ins k Hk). apply c75_flux; auto. lia.
Qed.
(** The amounts kept at the boundaries add up to the reported one. *)
Theorem c75_local os : NoDup locs -> forall st,
  Rsum locs (fun g => width grid g * (amt (xenonRun ns origin grid nX dif (parts procs locs) os st) g - amt st g)) =
  nXe (xenonRun ns origin grid nX dif (parts procs locs) os st) - nXe st.
Proof using cov ins.
  intros Hd. induction os as [|o r IH]; intros st; cbn [xenonRun].
  - rewrite Rsum_zero; [lra|]. intros; ring.
  - specialize (IH (xenonAt ns origin grid nX dif (parts procs locs) o st)).
    assert (E : Rsum locs (fun g => width grid g * (amt (xenonAt ns origin grid nX dif (parts procs locs) o st) g - amt st g)) =
                nXe (xenonAt ns origin grid nX dif (parts procs locs) o st) - nXe st).
    { cbn [amt nXe xenonAt]. rewrite (sum_all grid nX procs locs cov ins), <- Rsum_scal_r.
      replace (nXe st + Rsum locs (fun x => prv st x * width grid x * odt o) - nXe st) with (Rsum locs (fun x => prv st x * width grid x * odt o)) by ring.
      apply Rsum_ext. intros g Hg. rewrite (amounts_flat nX procs locs cov).
      rewrite (add_fold (fun g => prv st g * odt o)).
      rewrite (count_flat nX procs locs cov) by (destruct (ins g Hg); lia).
      rewrite (proj1 (NoDup_count_occ' Nat.eq_dec locs) Hd g Hg). cbn [INR]. ring. }
    rewrite (Rsum_ext locs _ (fun g => width grid g * (amt (xenonRun ns origin grid nX dif (parts procs locs) r (xenonAt ns origin grid nX dif (parts procs locs) o st)) g - amt (xenonAt ns origin grid nX dif (parts procs locs) o st) g) +
      width grid g * (amt (xenonAt ns origin grid nX dif (parts procs locs) o st) g - amt st g))) by (intros; ring).
    rewrite Rsum_plus, IH, E. ring.
Qed.
End COUNT.

(** ** Taking the boundaries out of the material *)
Lemma content_all grid nX procs tot : cover procs nX ->
  xeContent grid tot procs = Rsum (seq 0 nX) (fun xi => tot xi * width grid xi).
Proof.
  intros [<- _]. unfold xeContent. rewrite fold_plus, Rplus_0_l, Rsum_map, Rsum_flat_map. apply Rsum_ext. intros p _.
  assert (G : forall l a, fold_left (fun a xi => a + tot xi * (grid (xi + 1)%nat - grid xi)) l a = a + Rsum l (fun xi => tot xi * width grid xi)).
  { induction l as [|x l IH]; intros a; cbn [fold_left Rsum]; [lra|]. rewrite IH. unfold width. replace (S x) with (x + 1)%nat by lia. lra. }
  rewrite G. unfold owned. lra.
Qed.
(** What leaves the reported content is what the local amounts gain. *)
Theorem c75_init grid nX procs locs tot conc a :
  cover procs nX -> NoDup locs -> (forall g, In g locs -> (g < nX)%nat) -> tot (fun _ => 0) = 0 ->
  let ca := initGB tot (parts procs locs) (conc, a) in
  xeContent grid (fun xi => tot (fst ca xi)) procs + Rsum (seq 0 nX) (fun xi => snd ca xi * width grid xi) =
  xeContent grid (fun xi => tot (conc xi)) procs + Rsum (seq 0 nX) (fun xi => a xi * width grid xi) /\
  (forall g, In g locs -> fst ca g = fun _ => 0) /\
  (forall xi, ~ In xi locs -> fst ca xi = conc xi /\ snd ca xi = a xi).
Proof.
  intros Hc Hd Hi H0.
  set (step := fun (ca : (nat -> nat -> R) * (nat -> R)) g =>
    (fun xi => if Nat.eqb xi g then (fun _ : nat => 0) else fst ca xi, upd (snd ca) g (snd ca g + tot (fst ca g)))).
  assert (E : initGB tot (parts procs locs) (conc, a) = fold_left step (flat procs locs) (conc, a)).
  { unfold initGB, flat, parts. destruct Hc as [_ Hm]. revert Hm. generalize (conc, a). generalize procs.
    induction procs0 as [|p q IH]; intros ca Hm; cbn [map fold_left flat_map fst snd]; auto.
    rewrite fold_left_app, IH by (intros; apply Hm; right; auto). f_equal. rewrite local_filter by (apply Hm; left; auto).
    assert (G : forall l ca, (forall g, In g l -> owns p g = true) ->
      fold_left (fun ca0 g => if owns p g then step ca0 g else ca0) l ca = fold_left step l ca).
    { induction l as [|k l IHl]; intros b H; cbn [fold_left]; auto. rewrite (H k) by (left; auto). apply IHl. intros; apply H; right; auto. }
    apply G. intros g Hg. apply filter_In in Hg. tauto. }
  cbv zeta. rewrite E. clear E. rewrite !(content_all grid nX) by auto.
  assert (K : forall l ca,
    let cb := fold_left step l ca in
    (forall xi, tot (fst cb xi) + snd cb xi = tot (fst ca xi) + snd ca xi) /\
    (forall g, In g l -> fst cb g = fun _ => 0) /\
    (forall xi, ~ In xi l -> fst cb xi = fst ca xi /\ snd cb xi = snd ca xi)).
  { induction l as [|k l IH]; intros ca; cbn [fold_left]; [cbv zeta; repeat split; auto; intros g []|].
    destruct (IH (step ca k)) as (A & B & C). cbv zeta in *. repeat split.
    - intros xi. rewrite A. unfold step, upd. cbn [fst snd]. destruct (Nat.eqb_spec xi k) as [->|N]; [rewrite H0; lra|lra].
    - intros g Hg. destruct (in_dec Nat.eq_dec g l) as [I|I]; [apply B; auto|]. destruct (C g I) as [-> _].
      destruct Hg as [<-|Hg]; [|contradiction]. unfold step. cbn [fst]. rewrite Nat.eqb_refl. reflexivity.
    - destruct (C xi) as [-> _]; [intros I; apply H; right; auto|]. unfold step. cbn [fst].
      destruct (Nat.eqb_spec xi k) as [->|N]; auto. destruct H. left; auto.
    - destruct (C xi) as [_ ->]; [intros I; apply H; right; auto|]. unfold step, upd. cbn [snd].
      destruct (Nat.eqb_spec xi k) as [->|N]; auto. destruct H. left; auto. }
  destruct (K (flat procs locs) (conc, a)) as (A & B & C). cbn [fst snd] in *. split; [|split].
  - rewrite <- !Rsum_plus. apply Rsum_ext. intros xi _. specialize (A xi). rewrite <- !Rmult_plus_distr_r. f_equal. exact A.
  - intros g Hg. apply B. unfold flat. destruct (the_owner procs nX g Hc (Hi g Hg)) as (p & Hp & Ho).
    apply in_flat_map. exists p. split; auto. apply filter_In. auto.
  - intros xi Hx. apply C. intros I. apply Hx. unfold flat in I. apply in_flat_map in I. destruct I as (p & _ & I). apply filter_In in I. tauto.
Qed.

(** ** Examples *)
(** Xe_1 and Xe_2 diffuse, six points, a boundary at point 3. *)
Definition exOrigin (l : nat) : list Z := match l with 0%nat => [1; 0]%Z | 1%nat => [2; 0]%Z | _ => [0; 1]%Z end.
Definition exOut (dt : R) (c : nat -> R) : out := Out dt (fun l i => c i) (fun l _ => INR (S l)) (fun _ => 1000).
Definition exC (i : nat) : R := match i with 2%nat => 3 | 4%nat => 5 | _ => 0 end.
Example c75_flux_ok : gbRate 2 exOrigin (fun i => 0 + INR i * 2) 7 [0; 1]%nat (Proc 3 4) (exOut 1 exC) 3 = 10 /\
  cover [Proc 0 3; Proc 3 4] 7 /\ parts [Proc 0 3; Proc 3 4] [3]%nat = [(Proc 0 3, []); (Proc 3 4, [3%nat])].
Proof.
  split; [|split].
  - rewrite c75_flux; try lia; try reflexivity.
    + unfold xeRate, Properties_Retention.amount, exOrigin, exOut, exC. cbn [Rsum oC oD nth Nat.sub Nat.add INR]. lra.
    + intros l _. apply (Properties_Retention.exPure l).
    + intros i. rewrite S_INR. lra.
  - split; [reflexivity|]. intros p [<-|[<-|[]]]; cbn; lia.
  - reflexivity.
Qed.
Example c75_balance_ok : let o := exOut 1 exC in
  (forall l i, oD o l i = oD o l 0%nat) /\ (forall l, oC o l 0%nat = 0) /\ (forall l, oC o l 6%nat = 0) /\
  (forall l g, In g [3]%nat -> oC o l g = 0).
Proof. cbv zeta. repeat split. intros l g [<-|[]]. reflexivity. Qed.
Example c75_accumulated_ok : nXe (xenonRun 2 exOrigin (fun i => 0 + INR i * 2) 7 [0; 1]%nat (parts [Proc 0 3; Proc 3 4] [3]%nat)
    [exOut 0 exC; exOut 4 exC] (Xenon 0 (fun _ => 0) (fun _ => 0))) = 80.
Proof.
  rewrite (c75_accumulated 2 exOrigin (fun i => 0 + INR i * 2) 7 [0; 1]%nat [Proc 0 3; Proc 3 4] [3]%nat).
  - unfold xeRate, Properties_Retention.amount, exOrigin, exOut, exC, width.
    cbn [combine Rsum nXe prv odt fst snd oC oD nth Nat.sub Nat.add INR]. lra.
  - split; [reflexivity|]. intros p [<-|[<-|[]]]; cbn; lia.
  - intros g [<-|[]]. lia.
  - intros i. rewrite S_INR. lra.
  - intros l _. apply (Properties_Retention.exPure l).
Qed.

(** ** Where the output is wrong *)
(** A location given twice (setGBLocation is called for it once per coupling step, unless
    the vector is reset) counts twice. *)
Theorem c75_twice_refuted ns origin grid nX dif procs locs os st :
  cover procs nX -> (forall g, In g locs -> (1 <= g)%nat /\ (g + 1 < nX)%nat) -> (forall i, grid i < grid (S i)) ->
  (forall l, In l dif -> Properties_Retention.pure ns origin l) ->
  nXe (xenonRun ns origin grid nX dif (parts procs (locs ++ locs)) os st) - nXe st =
  2 * (nXe (xenonRun ns origin grid nX dif (parts procs locs) os st) - nXe st).
Proof.
  intros Hc Hi Hg Hp. rewrite !(c75_accumulated ns origin grid nX dif procs); auto.
  2:{ intros g H. apply in_app_or in H. destruct H; auto. }
  destruct os as [|o r]; [lra|]. rewrite Rsum_app.
  rewrite (Rsum_ext (combine (o :: r) r) (fun oo => odt (snd oo) * Rsum (locs ++ locs) (fun g => width grid g * xeRate origin grid dif (fst oo) g))
     (fun oo => 2 * (odt (snd oo) * Rsum locs (fun g => width grid g * xeRate origin grid dif (fst oo) g)))).
  - rewrite Rsum_scal. ring.
  - intros oo _. rewrite Rsum_app. ring.
Qed.
(** The xenon which was at the boundaries when they are taken out leaves the reported
    content and does not enter the reported amount (initGBLocation sets the local amounts
    only). *)
Theorem c75_init_refuted grid nX procs locs tot conc a :
  cover procs nX -> NoDup locs -> (forall g, In g locs -> (g < nX)%nat) -> tot (fun _ => 0) = 0 ->
  let ca := initGB tot (parts procs locs) (conc, a) in
  xeContent grid (fun xi => tot (fst ca xi)) procs =
  xeContent grid (fun xi => tot (conc xi)) procs - Rsum locs (fun g => tot (conc g) * width grid g).
Proof.
  intros Hc Hd Hi H0 ca. destruct (c75_init grid nX procs locs tot conc a Hc Hd Hi H0) as (_ & B & C).
  fold ca in B, C. rewrite !(content_all grid nX) by auto.
  rewrite (Rsum_ext (seq 0 nX) (fun xi => tot (fst ca xi) * width grid xi)
    (fun xi => tot (conc xi) * width grid xi - Rsum locs (fun g => if Nat.eq_dec g xi then tot (conc g) * width grid g else 0))).
  - rewrite Rsum_minus. f_equal. rewrite Rsum_swap. apply Rsum_ext. intros g Hg. rewrite (@Rsum_single _ (seq 0 nX) _ g).
    + destruct (Nat.eq_dec g g); [reflexivity|congruence].
    + apply seq_NoDup.
    + apply in_seq. specialize (Hi g Hg). lia.
    + intros x _ N. destruct (Nat.eq_dec g x); [congruence|reflexivity].
  - intros xi _. destruct (in_dec Nat.eq_dec xi locs) as [I|I].
    + rewrite (B xi I), H0. rewrite (@Rsum_single _ locs _ xi); auto.
      * destruct (Nat.eq_dec xi xi); [lra|congruence].
      * intros x _ N. destruct (Nat.eq_dec x xi); [congruence|reflexivity].
    + destruct (C xi I) as [-> _]. rewrite Rsum_zero; [lra|]. intros x Hx. destruct (Nat.eq_dec x xi); [congruence|reflexivity].
Qed.
Example c75_init_ok : let ca := initGB (fun c => c 0%nat) (parts [Proc 0 3; Proc 3 4] [3]%nat) (fun xi _ => INR xi, fun _ => 0) in
  fst ca 3%nat 0%nat = 0 /\ snd ca 3%nat = 0 + INR 3 /\ fst ca 2%nat 0%nat = INR 2.
Proof. repeat split; reflexivity. Qed.

Print Assumptions c75_flux.
Print Assumptions c75_stencil.
Print Assumptions c75_balance.
Print Assumptions c75_accumulated.
Print Assumptions c75_local.
Print Assumptions c75_init.
Print Assumptions c75_twice_refuted.
Print Assumptions c75_init_refuted.
