(** C83: the xenon at the grain boundaries in two and three dimensions. *)
From Verif Require Import Xenon3Model RetentionProofs Solver1DProofs StencilProofs.
From Verif Require RetentionModel Properties_Retention.
From Verif Require Import Properties_Retention3.
Open Scope R_scope.

(** ** Reference *)
Definition width (grid : nat -> R) (i : nat) : R := grid (S i) - grid i.
(** The same locations are given to every process. *)
Definition parts (procs : list proc) (locs : list point) : list (proc * list point) :=
  map (fun p => (p, setLocations p locs)) procs.
(** Inside the grid and away from its first planes and from the last in x *)
Definition inner (three : bool) (nX nY nZ : nat) (g : point) : Prop :=
  let '(xi, j, k) := g in
  (1 <= xi)%nat /\ (xi + 1 < nX)%nat /\ (1 <= j < nY)%nat /\ (k < nZ)%nat /\ (three = true -> (1 <= k)%nat).
Definition weight (grid : nat -> R) (g : point) : R := width grid (fst (fst g)).
(** The xenon which arrives at the boundary per time and volume, from its four or six neighbours in a periodic box *)
Definition xeRate (three : bool) (origin : nat -> list Z) (grid : nat -> R) (nY nZ : nat) (hy hz : R) (dif : list nat) (o : out) (g : point) : R :=
  let '(xi, j, k) := g in
  let hl := (grid (xi + 1)%nat - grid (xi - 1)%nat) / 2 in
  let hr := (grid (xi + 2)%nat - grid xi) / 2 in
  Rsum dif (fun l => amount origin l 0 * (
    2 / (hl + hr) * (oD o l (xi - 1)%nat * oC o l j k (xi - 1)%nat / hl + oD o l (xi + 1)%nat * oC o l j k (xi + 1)%nat / hr) +
    oD o l xi * (oC o l ((j + nY - 1) mod nY)%nat k xi + oC o l ((j + 1) mod nY)%nat k xi) / (hy * hy) +
    if three then oD o l xi * (oC o l j ((k + nZ - 1) mod nZ)%nat xi + oC o l j ((k + 1) mod nZ)%nat xi) / (hz * hz) else 0)).

(** ** Lemmas *)
Lemma before_mod n j : (j < n)%nat -> before n j = ((j + n - 1) mod n)%nat.
Proof.
  intros H. unfold before. destruct (Nat.eqb_spec j 0) as [->|N].
  - rewrite Nat.mod_small by lia. lia.
  - replace (j + n - 1)%nat with (j - 1 + 1 * n)%nat by lia. rewrite Nat.mod_add by lia. rewrite Nat.mod_small; lia.
Qed.
Lemma after_mod n j : (j < n)%nat -> after n j = ((j + 1) mod n)%nat.
Proof.
  intros H. unfold after. destruct (Nat.eqb_spec j (n - 1)) as [->|N].
  - replace (n - 1 + 1)%nat with n by lia. rewrite Nat.mod_same by lia. reflexivity.
  - rewrite Nat.mod_small; lia.
Qed.
Lemma point_eqb a b : pointEqb a b = true <-> a = b.
Proof.
  destruct a as [[i j] k], b as [[i' j'] k']. unfold pointEqb. rewrite !Bool.andb_true_iff, !Nat.eqb_eq. split; [intros [[-> ->] ->]; reflexivity|]. intros E. injection E. auto.
Qed.
Lemma point_refl a : pointEqb a a = true.
Proof. apply point_eqb. reflexivity. Qed.
Lemma point_neq a b : a <> b -> pointEqb a b = false.
Proof. intros H. apply Bool.not_true_is_false. intros E. apply H, point_eqb, E. Qed.
Definition point_dec (a b : point) : {a = b} + {a <> b}.
Proof. repeat decide equality. Defined.
Lemma mine_iff p i j k : mine p (i, j, k) = true <-> has p j k i.
Proof. apply owns_iff. Qed.
(** Only the points of a process count, whatever else is in its vector. *)
Lemma kept p locs : filter (mine p) (setLocations p locs) = filter (mine p) locs.
Proof.
  unfold setLocations. assert (G : forall l a, filter (mine p) (fold_left (setLocation p) l a) = filter (mine p) a ++ filter (mine p) l).
  { induction l as [|[[i j] k] l IH]; intros a; cbn [fold_left filter]; [rewrite app_nil_r; reflexivity|]. rewrite IH. unfold setLocation.
    destruct (_ && _ && _)%bool eqn:E.
    - rewrite filter_app, <- app_assoc. cbn [filter]. destruct (mine p (i, j, k)); reflexivity.
    - destruct (mine p (i, j, k)) eqn:M; [|reflexivity]. exfalso. apply mine_iff in M. unfold has in M.
      assert ((inside (xs p) (Nat.max (xm p) 1) i && inside (ys p) (Nat.max (ym p) 1) j && inside (zs p) (Nat.max (zm p) 1) k)%bool = true); [|congruence].
      rewrite !Bool.andb_true_iff, !inside_iff. lia. }
  rewrite G. reflexivity.
Qed.
Lemma fold_filter A B (b : B -> bool) (f : A -> B -> A) l : forall a, fold_left (fun a x => if b x then f a x else a) l a = fold_left f (filter b l) a.
Proof. induction l as [|x l IH]; intros a; cbn [fold_left filter]; [reflexivity|]. rewrite IH. destruct (b x); reflexivity. Qed.
Lemma fold_ext A B (f g : A -> B -> A) l : (forall a x, In x l -> f a x = g a x) -> forall a, fold_left f l a = fold_left g l a.
Proof.
  induction l as [|x l IH]; intros H a; cbn [fold_left]; [reflexivity|]. rewrite H by (left; reflexivity). apply IH. intros; apply H; right; assumption.
Qed.
Definition flat3 (procs : list proc) (locs : list point) : list point := flat_map (fun p => filter (mine p) locs) procs.

Section COVER.
Variables (nX nY nZ : nat) (procs : list proc) (locs : list point).
Hypothesis cov : cover procs nX nY nZ.
Definition inBox (g : point) : Prop := let '(i, j, k) := g in (i < nX)%nat /\ (j < nY)%nat /\ (k < nZ)%nat.
Lemma owner_sum g x : inBox g -> Rsum procs (fun p => if mine p g then x else 0) = x.
Proof using cov.
  destruct g as [[i j] k]. intros (Hi & Hj & Hk). destruct cov as [_ HO]. destruct (HO j k i Hj Hk Hi) as (l1 & p & l2 & EP & H1 & H2).
  apply (one_of procs (fun p => mine p (i, j, k)) x l1 p l2 EP); [apply mine_iff, H1|]. intros q Hq. apply owns_not, H2, Hq.
Qed.
Lemma the_owner g : inBox g -> exists p, In p procs /\ mine p g = true.
Proof using cov.
  destruct g as [[i j] k]. intros (Hi & Hj & Hk). destruct cov as [_ HO]. destruct (HO j k i Hj Hk Hi) as (l1 & p & l2 & -> & H1 & H2).
  exists p. split; [apply in_elt|apply mine_iff, H1].
Qed.
Lemma in_flat g : inBox g -> In g (flat3 procs locs) <-> In g locs.
Proof using cov.
  intros Hb. unfold flat3. rewrite in_flat_map. split.
  - intros (p & _ & I). apply filter_In in I. tauto.
  - intros I. destruct (the_owner g Hb) as (p & Hp & Hm). exists p. split; auto. apply filter_In. auto.
Qed.
Lemma count_flat g : inBox g -> count_occ point_dec (flat3 procs locs) g = count_occ point_dec locs g.
Proof using cov.
  intros Hg. apply INR_eq. unfold flat3.
  assert (E : forall l, INR (count_occ point_dec (flat_map (fun p => filter (mine p) locs) l) g) =
    Rsum l (fun p => if mine p g then INR (count_occ point_dec locs g) else 0)).
  { induction l as [|p l IH]; cbn [flat_map Rsum]; [reflexivity|]. rewrite count_occ_app, plus_INR, IH. f_equal.
    clear. induction locs as [|k r IH]; cbn [filter]; [destruct (mine p g); reflexivity|].
    destruct (mine p k) eqn:E; cbn [count_occ]; destruct (point_dec k g) as [->|N].
    - rewrite E in *. rewrite !S_INR, IH. reflexivity.
    - exact IH.
    - rewrite E in *. exact IH.
    - exact IH. }
  rewrite E. apply owner_sum. exact Hg.
Qed.
Lemma fold_parts A (f : A -> point -> A) : forall a,
  fold_left (fun a pg => fold_left (fun a g => if mine (fst pg) g then f a g else a) (snd pg) a) (parts procs locs) a = fold_left f (flat3 procs locs) a.
Proof using.
  unfold parts, flat3. generalize procs. induction procs0 as [|p q IH]; intros a; cbn [map fold_left flat_map fst snd]; [reflexivity|].
  rewrite fold_left_app, IH, fold_filter, kept. reflexivity.
Qed.
End COVER.
Lemma add_fold (x : point -> R) L : forall a g,
  fold_left (fun a g => set a g (a g + x g)) L a g = a g + INR (count_occ point_dec L g) * x g.
Proof.
  induction L as [|k L IH]; intros a g; cbn [fold_left count_occ]; [cbn [INR]; lra|]. rewrite IH. unfold set. destruct (point_dec k g) as [->|N].
  - rewrite point_refl, S_INR. lra.
  - rewrite point_neq by congruence. lra.
Qed.

(** ** The rate of one boundary *)
Theorem c83_flux three ns origin grid nX nY nZ hy hz dif p o g :
  (forall l, In l dif -> pure ns origin l) -> (forall i, grid i < grid (S i)) -> hy <> 0 -> hz <> 0 ->
  inner three nX nY nZ g -> mine p g = true ->
  gbRate three ns origin grid nX nY nZ hy hz dif p o g = Some (xeRate three origin grid nY nZ hy hz dif o g).
Proof.
  destruct g as [[xi j] k]. intros Hp Hg Hy Hz (X1 & X2 & HJ & HK & K1) Hm. apply mine_iff in Hm. destruct Hm as ((P1 & P2) & _).
  unfold gbRate. destruct (Nat.eqb_spec xi 0); [lia|]. destruct (Nat.eqb_spec j 0); [lia|]. cbn [orb].
  assert (E : (three && (k =? 0)%nat)%bool = false).
  { destruct three; [|reflexivity]. destruct (Nat.eqb_spec k 0); [|reflexivity]. specialize (K1 eq_refl). lia. }
  rewrite E. f_equal. unfold xeRate. rewrite <- !before_mod, <- !after_mod by lia.
  replace (j - 1)%nat with (before nY j) by (unfold before; destruct (Nat.eqb_spec j 0); lia).
  unfold from.
  assert (S1 : forall v : nat -> R, stored p v (xi - 1 + 1 - xs p) = v (xi - 1)%nat) by (intros v; unfold stored; f_equal; lia).
  assert (S2 : forall v : nat -> R, stored p v (xi + 1 + 1 - xs p) = v (xi + 1)%nat) by (intros v; unfold stored; f_equal; lia).
  assert (S3 : forall v : nat -> R, stored p v (xi + 1 - xs p) = v xi) by (intros v; unfold stored; f_equal; lia).
  pose proof (Hg (xi - 1)%nat) as A. pose proof (Hg xi) as B. pose proof (Hg (S xi)) as C.
  replace (S (xi - 1)) with xi in A by lia. replace (S (S xi)) with (xi + 2)%nat in C by lia. replace (S xi) with (xi + 1)%nat in * by lia.
  destruct three.
  - specialize (K1 eq_refl). replace (k - 1)%nat with (before nZ k) by (unfold before; destruct (Nat.eqb_spec k 0); lia).
    rewrite !diff_pure by exact Hp. rewrite Rplus_0_l, <- !Rsum_plus. apply Rsum_ext. intros l _. rewrite S1, S2, S3.
    unfold hxLeft, hxRight. destruct (Nat.leb_spec 1 xi); [|lia]. destruct (Nat.ltb_spec xi nX); [|lia]. unfold amount, RetentionProofs.amount. field. repeat split; lra.
  - rewrite !diff_pure by exact Hp. rewrite Rplus_0_l, <- !Rsum_plus. apply Rsum_ext. intros l _. rewrite S1, S2, S3.
    unfold hxLeft, hxRight. destruct (Nat.leb_spec 1 xi); [|lia]. destruct (Nat.ltb_spec xi nX); [|lia]. unfold amount, RetentionProofs.amount. field. repeat split; lra.
Qed.
Print Assumptions c83_flux.

(** It is what diffusion would add at the boundary, were the point not left out. *)
Theorem c83_stencil three origin grid nX nY nZ hy hz dif o xi j k :
  (forall i, grid i < grid (S i)) -> hy <> 0 -> hz <> 0 -> inner three nX nY nZ (xi, j, k) ->
  (forall l, In l dif -> oC o l j k xi = 0 /\ oD o l (xi - 1)%nat = oD o l xi /\ oD o l (xi + 1)%nat = oD o l xi) ->
  xeRate three origin grid nY nZ hy hz dif o (xi, j, k) =
  Rsum dif (fun l => amount origin l 0 * diffAt3 grid nX nY nZ (1 / hy ^ 2) (if three then 1 / hz ^ 2 else 0) (oD o l) (oC o l) j k xi).
Proof.
  intros Hg Hy Hz (X1 & X2 & HJ & HK & K1) H. unfold xeRate. apply Rsum_ext. intros l Hl. destruct (H l Hl) as (C0 & Dl_ & Dr_). f_equal.
  rewrite <- !before_mod, <- !after_mod by lia.
  unfold diffAt3, diff3, around3, hxLeft, hxRight. cbn [hl hr sy sz Dl Dm Dr].
  destruct (Nat.leb_spec 1 xi); [|lia]. destruct (Nat.ltb_spec xi nX); [|lia]. rewrite C0, Dl_, Dr_.
  pose proof (Hg (xi - 1)%nat) as A. pose proof (Hg xi) as B. pose proof (Hg (S xi)) as C.
  replace (S (xi - 1)) with xi in A by lia. replace (S (S xi)) with (xi + 2)%nat in C by lia. replace (S xi) with (xi + 1)%nat in * by lia.
  destruct three; field; repeat split; lra.
Qed.
Print Assumptions c83_stencil.

(** ** The counters over a run *)
Section RUN.
Variables (three : bool) (ns : nat) (origin : nat -> list Z) (grid : nat -> R) (nX nY nZ : nat) (hy hz : R) (dif : list nat).
Variables (procs : list proc) (locs : list point).
Hypothesis cov : cover procs nX nY nZ.
Hypothesis ins : forall g, In g locs -> inner three nX nY nZ g.
Hypothesis mono : forall i, grid i < grid (S i).
Hypothesis pur : forall l, In l dif -> pure ns origin l.
Hypothesis ny : hy <> 0.
Hypothesis nz : hz <> 0.
Notation run := (xenonRun three ns origin grid nX nY nZ hy hz dif (parts procs locs)).
Notation step := (xenonAt three ns origin grid nX nY nZ hy hz dif (parts procs locs)).
Notation rate := (xeRate three origin grid nY nZ hy hz dif).

Lemma ins_box g : In g locs -> inBox nX nY nZ g.
Proof using ins. intros H. specialize (ins g H). destruct g as [[i j] k]. cbn in *. lia. Qed.
Lemma sum_all v : fold_left Rplus (map (fun pg => gbSum grid hy hz (fst pg) (snd pg) v) (parts procs locs)) 0 =
  Rsum locs (fun g => weight grid g * v g) * (hy * hz).
Proof using cov ins.
  rewrite (fold_sum _ _ _ (fun x => x)) by reflexivity. rewrite Rplus_0_l. unfold parts. rewrite map_map, Rsum_map. cbn [fst snd].
  rewrite (Rsum_ext procs _ (fun p => Rsum locs (fun g => if mine p g then weight grid g * v g * (hy * hz) else 0))).
  - rewrite Rsum_swap, <- Rsum_scal_r. apply Rsum_ext. intros g Hg. apply (owner_sum nX nY nZ procs); auto. apply ins_box, Hg.
  - intros p _. unfold gbSum. rewrite (fold_filter _ _ (mine p) (fun a g => a + v g * (grid (fst (fst g) + 1)%nat - grid (fst (fst g))) * hy * hz)).
    rewrite kept, (fold_sum _ _ _ (fun g => weight grid g * v g * (hy * hz))).
    + rewrite Rplus_0_l, Rsum_filter. apply Rsum_ext. intros g _. destruct (mine p g); reflexivity.
    + intros a g _. unfold weight, width. replace (S (fst (fst g))) with (fst (fst g) + 1)%nat by lia. ring.
Qed.
Lemma fluxes o : forall v, exists w, allFluxes three ns origin grid nX nY nZ hy hz dif (parts procs locs) o v = Some w /\
  forall g, inBox nX nY nZ g -> w g = if in_dec point_dec g locs then rate o g else v g.
Proof using cov ins mono pur ny nz.
  assert (B : forall p v l, (forall g, In g l -> mine p g = true -> In g locs) ->
    gbFluxes three ns origin grid nX nY nZ hy hz dif p l o v = Some (fold_left (fun f g => set f g (rate o g)) (filter (mine p) l) v)).
  { intros p v l. revert v. induction l as [|g l IH]; intros v H; cbn [gbFluxes filter]; [reflexivity|].
    destruct (mine p g) eqn:M.
    - rewrite (c83_flux three ns origin grid nX nY nZ hy hz dif p o g); auto; [|apply ins, H; [left|]; auto].
      cbn [fold_left]. apply IH. intros; apply H; [right|]; auto.
    - apply IH. intros; apply H; [right|]; auto. }
  assert (A : forall l v, allFluxes three ns origin grid nX nY nZ hy hz dif (parts l locs) o v = Some (fold_left (fun f g => set f g (rate o g)) (flat3 l locs) v)).
  { induction l as [|p l IH]; intros v; cbn [parts map allFluxes flat3 flat_map fst snd]; [reflexivity|].
    rewrite B, kept.
    - unfold parts in IH. rewrite IH. rewrite fold_left_app. reflexivity.
    - intros g Hg Hm. assert (I : In g (filter (mine p) (setLocations p locs))) by (apply filter_In; auto). rewrite kept in I. apply filter_In in I. tauto. }
  intros v. eexists. split; [apply A|]. intros g Hb.
  assert (F : forall l v, fold_left (fun f g => set f g (rate o g)) l v g = if in_dec point_dec g l then rate o g else v g).
  { induction l as [|k l IH]; intros w; cbn [fold_left]; [reflexivity|]. rewrite IH. unfold set.
    destruct (in_dec point_dec g l) as [I|I]; destruct (in_dec point_dec g (k :: l)) as [J|J]; auto.
    - destruct J. right; auto.
    - destruct J as [->|J]; [rewrite point_refl; reflexivity|contradiction].
    - rewrite point_neq; [reflexivity|]. intros ->. apply J. left; auto. }
  rewrite F. pose proof (in_flat nX nY nZ procs locs cov g Hb) as E. destruct (in_dec point_dec g (flat3 procs locs)), (in_dec point_dec g locs); tauto.
Qed.
Lemma step_ok o st : exists st', step o st = Some st' /\ nXe st' = nXe st + odt o * (Rsum locs (fun g => weight grid g * prv st g) * (hy * hz)) /\
  (forall g, inBox nX nY nZ g -> amt st' g = amt st g + INR (count_occ point_dec locs g) * (prv st g * odt o)) /\
  (forall g, inBox nX nY nZ g -> prv st' g = if in_dec point_dec g locs then rate o g else prv st g).
Proof using cov ins mono pur ny nz.
  destruct (fluxes o (prv st)) as (w & E & W). unfold xenonAt. rewrite E. eexists. split; [reflexivity|]. cbn [nXe amt prv]. split; [rewrite sum_all; ring|]. split; [|exact W].
  intros g Hb. unfold gbAmounts. rewrite (fold_parts procs locs _ (fun a g => set a g (a g + prv st g * odt o))).
  rewrite (add_fold (fun g => prv st g * odt o)), (count_flat nX nY nZ procs locs cov g Hb). reflexivity.
Qed.

Hypothesis posY : (0 < nY)%nat.
Hypothesis posZ : (0 < nZ)%nat.
(** Whatever the partition, the printed amount grows in every step by its length times the rates at its beginning, over the number
    of columns. *)
Theorem c83_accumulated os : forall st, exists st', run os st = Some st' /\
  printedXe nY nZ hy hz st' = printedXe nY nZ hy hz st +
  match os with
  | [] => 0
  | o :: r => odt o * Rsum locs (fun g => weight grid g * prv st g) +
              Rsum (combine os r) (fun oo => odt (snd oo) * Rsum locs (fun g => weight grid g * rate (fst oo) g))
  end / (INR nY * INR nZ).
Proof using cov ins mono pur posY posZ ny nz.
  assert (YZ : INR nY <> 0 /\ INR nZ <> 0) by (split; apply not_0_INR; lia).
  induction os as [|o r IH]; intros st; cbn [xenonRun]; [exists st; split; [reflexivity|unfold Rdiv; lra]|].
  destruct (step_ok o st) as (st1 & E1 & N1 & _ & P1). rewrite E1. destruct (IH st1) as (st' & E & F). exists st'. split; [exact E|]. rewrite F.
  assert (S1 : printedXe nY nZ hy hz st1 = printedXe nY nZ hy hz st + odt o * Rsum locs (fun g => weight grid g * prv st g) / (INR nY * INR nZ)).
  { unfold printedXe. rewrite N1. field. tauto. }
  rewrite S1. destruct r as [|o' r]; [cbn [combine Rsum]; unfold Rdiv; ring|].
  change (combine (o :: o' :: r) (o' :: r)) with ((o, o') :: combine (o' :: r) r). cbn [Rsum fst snd].
  rewrite (Rsum_ext locs (fun g => weight grid g * prv st1 g) (fun g => weight grid g * rate o g)); [unfold Rdiv; ring|].
  intros g Hg. f_equal. rewrite P1 by (apply ins_box, Hg). destruct (in_dec point_dec g locs); [reflexivity|contradiction].
Qed.
(** The amounts kept at the boundaries add up to the printed one. *)
Theorem c83_local os : NoDup locs -> forall st st', run os st = Some st' ->
  Rsum locs (fun g => weight grid g * (amt st' g - amt st g)) / (INR nY * INR nZ) = printedXe nY nZ hy hz st' - printedXe nY nZ hy hz st.
Proof using cov ins mono pur posY posZ ny nz.
  assert (YZ : INR nY <> 0 /\ INR nZ <> 0) by (split; apply not_0_INR; lia).
  intros Hd. induction os as [|o r IH]; intros st st'; cbn [xenonRun].
  - intros E. injection E as <-. rewrite Rsum_zero; [unfold Rdiv; ring|]. intros; ring.
  - destruct (step_ok o st) as (st1 & E1 & N1 & A1 & _). rewrite E1. intros E. specialize (IH st1 st' E).
    replace (printedXe nY nZ hy hz st' - printedXe nY nZ hy hz st) with ((printedXe nY nZ hy hz st' - printedXe nY nZ hy hz st1) + (printedXe nY nZ hy hz st1 - printedXe nY nZ hy hz st)) by ring.
    rewrite <- IH. unfold printedXe. rewrite N1.
    rewrite (Rsum_ext locs _ (fun g => weight grid g * (amt st' g - amt st1 g) + weight grid g * prv st g * odt o)).
    + rewrite Rsum_plus, Rsum_scal_r. field. tauto.
    + intros g Hg. pose proof (A1 g (ins_box g Hg)) as A. rewrite (proj1 (NoDup_count_occ' point_dec locs) Hd g Hg) in A. cbn [INR] in A. rewrite A. ring.
Qed.
End RUN.
Print Assumptions c83_accumulated.
Print Assumptions c83_local.

(** ** The content and the radii *)
Definition boxSum (grid : nat -> R) (nX nY nZ : nat) (f : nat -> nat -> nat -> R) : R :=
  Rsum (seq 0 nZ) (fun k => Rsum (seq 0 nY) (fun j => Rsum (seq 0 nX) (fun xi => f j k xi * width grid xi))).
Lemma allSum_box grid nX nY nZ hy hz tot procs : cover procs nX nY nZ -> (0 < nY)%nat -> (0 < nZ)%nat -> hy <> 0 -> hz <> 0 ->
  allSum grid hy hz tot procs = hy * hz * boxSum grid nX nY nZ tot.
Proof.
  intros HC HY HZ Hy Hz. assert (INR nY <> 0 /\ INR nZ <> 0) by (split; apply not_0_INR; lia).
  pose proof (c76_content grid nX nY nZ hy hz 0 0 (fun _ _ => 0%nat) (fun j k xi _ => tot j k xi) procs 0 HC HY HZ Hy Hz ltac:(intros; cbn; lia)) as R.
  unfold content, mean, area in R. rewrite mult_INR in R.
  replace (fold_left Rplus (map (myContent grid nX hy hz 0 0 (fun _ _ => 0%nat) (fun j k xi _ => tot j k xi) 0) procs) 0) with (allSum grid hy hz tot procs) in R.
  - unfold boxSum, width. apply (Rmult_eq_compat_r (INR nY * INR nZ * hy * hz)) in R. unfold Rdiv in R. rewrite Rmult_assoc, Rinv_l, Rmult_1_r in R.
    + rewrite R. rewrite (Rsum_ext (seq 0 nZ) (fun k => Rsum (seq 0 nY) (fun j => Rsum (seq (0 + 0) (nX - 0 - 0 - 0)) (fun xi => tot j k xi * (grid (S xi) - grid xi))))
        (fun k => Rsum (seq 0 nY) (fun j => Rsum (seq 0 nX) (fun xi => tot j k xi * (grid (S xi) - grid xi))))).
      * field. tauto.
      * intros k _. replace (nX - 0 - 0 - 0)%nat with nX by lia. reflexivity.
    + repeat apply Rmult_integral_contrapositive_currified; tauto.
  - unfold allSum. f_equal. apply map_ext_in. intros p Hp. destruct (proj1 HC p Hp) as (B & _). unfold mySum, myContent.
    apply fold_ext. intros a k _. apply fold_ext. intros b j _. apply fold_ext. intros c xi Hx. apply in_seq in Hx.
    destruct (Nat.ltb_spec xi (0 + 0)); [lia|]. destruct (Nat.leb_spec (nX - 0) xi); [lia|]. reflexivity.
Qed.
Theorem c83_content grid nX nY nZ hy hz tot procs : cover procs nX nY nZ -> (0 < nY)%nat -> (0 < nZ)%nat -> hy <> 0 -> hz <> 0 ->
  printedContent grid nY nZ hy hz tot procs = mean nY nZ (fun j k => Rsum (seq 0 nX) (fun xi => tot j k xi * (grid (S xi) - grid xi))).
Proof.
  intros HC HY HZ Hy Hz. unfold printedContent. rewrite (allSum_box grid nX nY nZ) by assumption. unfold boxSum, mean, width.
  assert (INR nY <> 0 /\ INR nZ <> 0) by (split; apply not_0_INR; lia). field. tauto.
Qed.
Print Assumptions c83_content.
Lemma box_le grid nX nY nZ f g : (forall i, grid i < grid (S i)) -> (forall j k xi, f j k xi <= g j k xi) ->
  boxSum grid nX nY nZ f <= boxSum grid nX nY nZ g.
Proof.
  intros Hg H. unfold boxSum. apply Rsum_le. intros k _. apply Rsum_le. intros j _. apply Rsum_le. intros xi _.
  apply Rmult_le_compat_r; [unfold width; specialize (Hg xi); lra|apply H].
Qed.
Lemma box_scal grid nX nY nZ f c : boxSum grid nX nY nZ (fun j k xi => c * f j k xi) = c * boxSum grid nX nY nZ f.
Proof.
  unfold boxSum. rewrite <- Rsum_scal. apply Rsum_ext. intros k _. rewrite <- Rsum_scal. apply Rsum_ext. intros j _. rewrite <- Rsum_scal. apply Rsum_ext. intros; ring.
Qed.
(** The printed mean radius is the weighted mean, so between the smallest and the largest, unless there are next to no bubbles. *)
Theorem c83_radius grid nX nY nZ hy hz total radius procs rmin rmax : cover procs nX nY nZ -> (0 < nY)%nat -> (0 < nZ)%nat -> 0 < hy -> 0 < hz ->
  (forall i, grid i < grid (S i)) ->
  (forall j k xi, rmin * total j k xi <= radius j k xi <= rmax * total j k xi) ->
  let n := hy * hz * boxSum grid nX nY nZ total in
  (1 / 10 ^ 16 < n -> printedRadius grid hy hz total radius procs = boxSum grid nX nY nZ radius / boxSum grid nX nY nZ total /\
                      rmin <= printedRadius grid hy hz total radius procs <= rmax) /\
  (n <= 1 / 10 ^ 16 -> printedRadius grid hy hz total radius procs = 0).
Proof.
  intros HC HY HZ Hy Hz Hg HR n. unfold printedRadius. rewrite !(allSum_box grid nX nY nZ) by (assumption || lra). fold n.
  assert (P16 : 0 < 1 / 10 ^ 16) by (apply Rdiv_lt_0_compat; [lra|apply pow_lt; lra]).
  destruct (Rlt_dec (1 / 10 ^ 16) n) as [L|L]; split; intros H; try lra.
  - assert (HB : 0 < boxSum grid nX nY nZ total).
    { apply Rmult_lt_reg_l with (hy * hz); [apply Rmult_lt_0_compat; lra|]. rewrite Rmult_0_r. fold n. lra. }
    assert (E : hy * hz * boxSum grid nX nY nZ radius / n = boxSum grid nX nY nZ radius / boxSum grid nX nY nZ total) by (unfold n; field; lra).
    rewrite E. split; [reflexivity|]. split.
    + apply Rmult_le_reg_r with (boxSum grid nX nY nZ total); [exact HB|]. unfold Rdiv. rewrite (Rmult_assoc (boxSum grid nX nY nZ radius)), Rinv_l, Rmult_1_r by lra.
      rewrite <- box_scal. apply box_le; [exact Hg|]. intros; apply HR.
    + apply Rmult_le_reg_r with (boxSum grid nX nY nZ total); [exact HB|]. unfold Rdiv. rewrite (Rmult_assoc (boxSum grid nX nY nZ radius)), Rinv_l, Rmult_1_r by lra.
      rewrite <- box_scal. apply box_le; [exact Hg|]. intros; apply HR.
Qed.
Print Assumptions c83_radius.

(** ** The transport balance: on a uniform grid diffusion takes from the content what goes through the two sides in x and what arrives at the
    boundaries. *)
Lemma sum_points A (dec : forall a b : A, {a = b} + {a <> b}) (l sub : list A) (f : A -> R) : NoDup l -> NoDup sub -> (forall g, In g sub -> In g l) ->
  Rsum l (fun x => if in_dec dec x sub then f x else 0) = Rsum sub f.
Proof.
  intros Hl Hd Hi. rewrite (Rsum_ext l _ (fun x => Rsum sub (fun g => if dec g x then f g else 0))).
  - rewrite Rsum_swap. apply Rsum_ext. intros g Hg. rewrite (@Rsum_single _ l _ g); auto.
    + destruct (dec g g); [reflexivity|congruence].
    + intros x _ N. destruct (dec g x); [congruence|reflexivity].
  - intros x _. destruct (in_dec dec x sub) as [I|I].
    + rewrite (@Rsum_single _ sub _ x); auto.
      * destruct (dec x x); [reflexivity|congruence].
      * intros y _ N. destruct (dec y x); [congruence|reflexivity].
    + symmetry. apply Rsum_zero. intros y Hy. destruct (dec y x); [congruence|reflexivity].
Qed.
Definition points (nX nY nZ : nat) : list point :=
  flat_map (fun k => flat_map (fun j => map (fun xi => (xi, j, k)) (seq 1 (nX - 2))) (seq 0 nY)) (seq 0 nZ).
Lemma NoDup_two A (l m : list A) : NoDup l -> NoDup m -> (forall x, In x l -> ~ In x m) -> NoDup (l ++ m).
Proof.
  intros Hl. induction Hl as [|a l Na Hl IH]; intros Hm H; cbn [app]; [exact Hm|]. constructor.
  - intros I. apply in_app_or in I as [I|I]; [contradiction|]. apply (H a); [left; reflexivity|exact I].
  - apply IH; [exact Hm|]. intros x Hx. apply H. right; exact Hx.
Qed.
Lemma NoDup_flat A B (f : A -> list B) l : NoDup l -> (forall a, In a l -> NoDup (f a)) -> (forall a b x, In a l -> In b l -> In x (f a) -> In x (f b) -> a = b) -> NoDup (flat_map f l).
Proof.
  intros Hl. induction Hl as [|a l Na Hl IH]; intros H1 H2; cbn [flat_map]; [constructor|].
  apply NoDup_two; [apply H1; left; reflexivity|apply IH|].
  - intros b Hb. apply H1. right; auto.
  - intros b d x Hb Hd. apply H2; right; auto.
  - intros x Hx I. apply in_flat_map in I as (b & Hb & I). assert (a = b) by (apply (H2 a b x); auto; [left|right]; auto). subst. contradiction.
Qed.
Lemma points_NoDup nX nY nZ : NoDup (points nX nY nZ).
Proof.
  unfold points. apply NoDup_flat; [apply seq_NoDup| |].
  - intros k _. apply NoDup_flat; [apply seq_NoDup| |].
    + intros j _. apply FinFun.Injective_map_NoDup; [intros a b E; congruence|apply seq_NoDup].
    + intros a b x _ _ Ha Hb. apply in_map_iff in Ha as (? & <- & _). apply in_map_iff in Hb as (? & E & _). congruence.
  - intros a b x _ _ Ha Hb. apply in_flat_map in Ha as (? & _ & Ha). apply in_flat_map in Hb as (? & _ & Hb).
    apply in_map_iff in Ha as (? & <- & _). apply in_map_iff in Hb as (? & E & _). congruence.
Qed.
Lemma points_in nX nY nZ xi j k : In (xi, j, k) (points nX nY nZ) <-> (1 <= xi < nX - 1)%nat /\ (j < nY)%nat /\ (k < nZ)%nat.
Proof.
  unfold points. rewrite in_flat_map. split.
  - intros (k' & Hk & I). apply in_flat_map in I as (j' & Hj & I). apply in_map_iff in I as (x' & E & I). injection E as -> -> ->. apply in_seq in Hk, Hj, I. lia.
  - intros (Hx & Hj & Hk). exists k. split; [apply in_seq; lia|]. apply in_flat_map. exists j. split; [apply in_seq; lia|]. apply in_map_iff. exists xi. split; [reflexivity|]. apply in_seq. lia.
Qed.
Lemma points_sum nX nY nZ f : Rsum (points nX nY nZ) f = Rsum (seq 0 nZ) (fun k => Rsum (seq 0 nY) (fun j => Rsum (seq 1 (nX - 2)) (fun xi => f (xi, j, k)))).
Proof.
  unfold points. rewrite Rsum_flat_map. apply Rsum_ext. intros k _. rewrite Rsum_flat_map. apply Rsum_ext. intros j _. apply Rsum_map.
Qed.
Theorem c83_balance three ns origin g0 h nX nY nZ hy hz dif locs o :
  let grid := fun i => g0 + INR i * h in
  0 < h -> (3 <= nX)%nat -> hy <> 0 -> hz <> 0 -> NoDup locs -> (forall g, In g locs -> inner three nX nY nZ g) ->
  (forall l, In l dif -> pure ns origin l) ->
  (forall j k, oSurf o j k = 0%nat) -> (forall l i, oD o l i = oD o l 0%nat) -> (forall i, oT o i = oT o 0%nat) -> 0 < oT o 0%nat ->
  (forall l j k, oC o l j k 0%nat = 0) -> (forall l j k, oC o l j k (nX - 1)%nat = 0) ->
  (forall l xi j k, In (xi, j, k) locs -> oC o l j k xi = 0) ->
  mean nY nZ (fun j k => Rsum (seq 1 (nX - 2)) (fun xi => width grid xi *
    Rsum dif (fun l => amount origin l 0 * diffRate grid nX nY nZ locs (1 / hy ^ 2) (if three then 1 / hz ^ 2 else 0) (oD o l) (oC o l) j k xi))) =
  - (mean nY nZ (fun j k => leftFlux origin grid dif [] j k o 0) + mean nY nZ (fun j k => rightFlux origin grid nX dif j k o 0))
  - Rsum locs (fun g => weight grid g * xeRate three origin grid nY nZ hy hz dif o g) / (INR nY * INR nZ).
Proof.
  intros grid Hh Hn Hy Hz Hd Hin Hp HS HD HT HT0 C0 C1 Cg.
  assert (Hg : forall i, grid i < grid (S i)) by (intros i; unfold grid; rewrite S_INR; nra).
  set (sy := 1 / hy ^ 2). set (sz := if three then 1 / hz ^ 2 else 0).
  pose proof (c76_rate ns origin g0 h nX nY nZ sy sz 0 dif [] o 0 Hh ltac:(lia) Hp ltac:(intros ? []) HS HD HT HT0 C0 C1) as R. cbv zeta in R. fold grid in R.
  rewrite <- R. clear R. rewrite Nat.add_0_l, Nat.sub_0_r.
  set (st := fun g : point => let '(xi, j, k) := g in width grid xi * Rsum dif (fun l => amount origin l 0 * diffAt3 grid nX nY nZ sy sz (oD o l) (oC o l) j k xi)).
  assert (M : forall f, mean nY nZ (fun j k => Rsum (seq 1 (nX - 2)) (fun xi => f xi j k)) = Rsum (points nX nY nZ) (fun g => f (fst (fst g)) (snd (fst g)) (snd g)) / (INR nY * INR nZ))
    by (intros f; rewrite points_sum; reflexivity).
  rewrite (M (fun xi j k => width grid xi * Rsum dif (fun l => amount origin l 0 * diffRate grid nX nY nZ locs sy sz (oD o l) (oC o l) j k xi))).
  rewrite (M (fun xi j k => (grid (S xi) - grid xi) * (Rsum dif (fun l => amount origin l 0 * diffAt3 grid nX nY nZ sy sz (oD o l) (oC o l) j k xi) + Rsum [] _))).
  unfold Rdiv. rewrite <- Rmult_minus_distr_r. f_equal.
  rewrite (Rsum_ext locs (fun g => weight grid g * xeRate three origin grid nY nZ hy hz dif o g) st).
  - rewrite <- (sum_points _ point_dec (points nX nY nZ) locs st); auto using points_NoDup.
    + rewrite <- Rsum_minus. apply Rsum_ext. intros [[xi j] k] _. cbn [fst snd Rsum]. rewrite Rplus_0_r. unfold diffRate, st.
      destruct (in_dec point_dec (xi, j, k) locs) as [I|I].
      * assert (E : existsb (pointEqb (xi, j, k)) locs = true) by (apply existsb_exists; eexists; split; [exact I|apply point_refl]). rewrite E.
        rewrite (Rsum_zero dif (fun l => amount origin l 0 * 0)) by (intros; ring). unfold width. ring.
      * assert (E : existsb (pointEqb (xi, j, k)) locs = false).
        { apply Bool.not_true_is_false. intros E. apply existsb_exists in E as (y & Hi & E). apply point_eqb in E. subst y. contradiction. }
        rewrite E. unfold width. ring.
    + intros [[xi j] k] H. specialize (Hin _ H). cbn in Hin. apply points_in. lia.
  - intros [[xi j] k] H. unfold st, weight. cbn [fst]. f_equal. unfold sy, sz. apply c83_stencil; auto. intros l _. rewrite (Cg l xi j k H), (HD l (xi - 1)%nat), (HD l (xi + 1)%nat), (HD l xi). auto.
Qed.
Print Assumptions c83_balance.

(** ** Taking the boundaries out of the material *)
Theorem c83_init nX nY nZ procs locs tot conc a :
  cover procs nX nY nZ -> (forall g, In g locs -> inBox nX nY nZ g) -> tot (fun _ => 0) = 0 ->
  let ca := initGB tot (parts procs locs) (conc, a) in
  (forall g, tot (fst ca g) + snd ca g = tot (conc g) + a g) /\
  (forall g, In g locs -> fst ca g = fun _ => 0) /\
  (forall g, ~ In g locs -> fst ca g = conc g /\ snd ca g = a g).
Proof.
  intros Hc Hi H0. set (step := fun (ca : (point -> nat -> R) * (point -> R)) g =>
    (fun h => if pointEqb h g then (fun _ : nat => 0) else fst ca h, set (snd ca) g (snd ca g + tot (fst ca g)))).
  assert (E : initGB tot (parts procs locs) (conc, a) = fold_left step (flat3 procs locs) (conc, a)) by exact (fold_parts procs locs _ step (conc, a)).
  cbv zeta. rewrite E. clear E.
  assert (K : forall l ca, let cb := fold_left step l ca in
    (forall g, tot (fst cb g) + snd cb g = tot (fst ca g) + snd ca g) /\
    (forall g, In g l -> fst cb g = fun _ => 0) /\
    (forall g, ~ In g l -> fst cb g = fst ca g /\ snd cb g = snd ca g)).
  { induction l as [|k l IH]; intros ca; cbn [fold_left]; [cbv zeta; repeat split; auto; intros g []|].
    destruct (IH (step ca k)) as (A & B & C). cbv zeta in *. split; [|split].
    - intros g. rewrite A. unfold step, set. cbn [fst snd]. destruct (point_dec g k) as [->|N]; [rewrite point_refl, H0; lra|rewrite point_neq by exact N; lra].
    - intros g Hg. destruct (in_dec point_dec g l) as [I|I]; [apply B; auto|]. destruct (C g I) as [-> _].
      destruct Hg as [<-|Hg]; [|contradiction]. unfold step. cbn [fst]. rewrite point_refl. reflexivity.
    - intros g N. destruct (C g) as [-> ->]; [intros I; apply N; right; auto|]. unfold step, set. cbn [fst snd].
      rewrite point_neq by (intros ->; apply N; left; auto). auto. }
  destruct (K (flat3 procs locs) (conc, a)) as (A & B & C). cbn [fst snd] in *. split; [exact A|]. split.
  - intros g Hg. apply B. apply (in_flat nX nY nZ procs locs Hc g (Hi g Hg)). exact Hg.
  - intros g Hg. apply C. intros I. apply Hg. unfold flat3 in I. apply in_flat_map in I. destruct I as (p & _ & I). apply filter_In in I. tauto.
Qed.
Print Assumptions c83_init.
(** The xenon which was at the boundaries leaves the printed content; the printed amount at the boundaries is not told. *)
Theorem c83_init_refuted grid nX nY nZ hy hz procs (locs : list point) tot conc a :
  cover procs nX nY nZ -> (0 < nY)%nat -> (0 < nZ)%nat -> hy <> 0 -> hz <> 0 -> NoDup locs ->
  (forall xi j k, In (xi, j, k) locs -> (1 <= xi < nX - 1)%nat /\ (j < nY)%nat /\ (k < nZ)%nat) -> tot (fun _ => 0) = 0 ->
  let ca := initGB tot (parts procs locs) (conc, a) in
  printedContent grid nY nZ hy hz (fun j k xi => tot (fst ca (xi, j, k))) procs =
  printedContent grid nY nZ hy hz (fun j k xi => tot (conc (xi, j, k))) procs -
  Rsum locs (fun g => weight grid g * tot (conc g)) / (INR nY * INR nZ).
Proof.
  intros Hc HY HZ Hy Hz Hd Hi H0 ca. destruct (c83_init nX nY nZ procs locs tot conc a Hc ltac:(intros [[xi j] k] H; specialize (Hi xi j k H); cbn; lia) H0) as (_ & B & C).
  fold ca in B, C. rewrite !(c83_content grid nX) by assumption. unfold mean. rewrite <- Rdiv_minus_distr. f_equal.
  rewrite <- (sum_points _ point_dec (points nX nY nZ) locs (fun g => weight grid g * tot (conc g))), points_sum; auto using points_NoDup.
  2:{ intros [[xi j] k] H. apply points_in. apply Hi, H. }
  rewrite <- Rsum_minus. apply Rsum_ext. intros k Hk. apply in_seq in Hk. rewrite <- Rsum_minus. apply Rsum_ext. intros j Hj. apply in_seq in Hj.
  destruct (le_lt_dec nX 2) as [L|L].
  - rewrite (Rsum_ext (seq 0 nX) (fun xi => tot (fst ca (xi, j, k)) * (grid (S xi) - grid xi)) (fun xi => tot (conc (xi, j, k)) * (grid (S xi) - grid xi))).
    + replace (nX - 2)%nat with 0%nat by lia. cbn [seq Rsum]. ring.
    + intros xi _. destruct (C (xi, j, k)) as [-> _]; [|reflexivity]. intros I. specialize (Hi _ _ _ I). lia.
  - set (F := fun xi => if in_dec point_dec (xi, j, k) locs then width grid xi * tot (conc (xi, j, k)) else 0).
    transitivity (Rsum (seq 0 nX) (fun xi => tot (conc (xi, j, k)) * (grid (S xi) - grid xi)) - Rsum (seq 0 nX) F).
    + rewrite <- Rsum_minus. apply Rsum_ext. intros xi _. unfold F. destruct (in_dec point_dec (xi, j, k) locs) as [I|I].
      * rewrite (B _ I), H0. unfold width. ring.
      * destruct (C _ I) as [-> _]. ring.
    + f_equal. replace nX with (1 + (nX - 2) + 1)%nat at 1 by lia. rewrite seq_band, !Rsum_app, (Rsum_zero (seq 0 1)), (Rsum_zero (seq (1 + (nX - 2)) 1)).
      * unfold F. cbn [weight fst]. rewrite Rplus_0_l, Rplus_0_r. apply Rsum_ext. intros xi _. destruct (in_dec point_dec (xi, j, k) locs); reflexivity.
      * intros xi Hx. apply in_seq in Hx. unfold F. destruct (in_dec point_dec (xi, j, k) locs) as [I|I]; [|reflexivity]. specialize (Hi _ _ _ I). lia.
      * intros xi Hx. apply in_seq in Hx. unfold F. destruct (in_dec point_dec (xi, j, k) locs) as [I|I]; [|reflexivity]. specialize (Hi _ _ _ I). lia.
Qed.
Print Assumptions c83_init_refuted.

(** ** Examples: seven points in x, three columns (two processes share the first two), a boundary of one point in the middle column *)
Definition exOrigin (l : nat) : list Z := match l with 0%nat => [1; 0]%Z | 1%nat => [2; 0]%Z | _ => [0; 1]%Z end.
Lemma exPure l : pure 2 exOrigin l.
Proof.
  destruct l as [|[|l]]; [exists 0%nat|exists 0%nat|exists 1%nat]; (split; [lia|split; [discriminate|]]); intros [|[|[|t]]] H; cbn; try reflexivity; congruence.
Qed.
Definition exGrid (i : nat) : R := 0 + INR i * 2.
Lemma exMono i : exGrid i < exGrid (S i).
Proof. unfold exGrid. rewrite S_INR. lra. Qed.
Definition exC (j xi : nat) : R := match j, xi with 1%nat, 1%nat => 3 | 1%nat, 3%nat => 5 | 0%nat, 2%nat => 7 | 2%nat, 2%nat => 11 | _, _ => 0 end.
Definition exOut (dt : R) : out := Out dt (fun l j _ xi => exC j xi) (fun l _ => INR (S l)) (fun _ => 1000) (fun _ _ => 0%nat) (fun _ _ => 0%nat).
Lemma exInner : forall g, In g [(2, 1, 0)%nat] -> inner false 5 3 1 g.
Proof. intros g [<-|[]]. cbn. lia || (repeat split; lia || discriminate). Qed.
Example c83_flux_ok : gbRate false 2 exOrigin exGrid 5 3 1 3 1 [0; 1]%nat (Proc 2 3 0 2 0 1) (exOut 1) (2, 1, 0)%nat = Some 20 /\
  mine (Proc 2 3 0 2 0 1) (2, 1, 0)%nat = true /\ mine (Proc 0 2 0 2 0 1) (2, 1, 0)%nat = false /\
  xeRate true exOrigin exGrid 3 3 3 3 [0; 1]%nat (exOut 1) (2, 1, 1)%nat = 20.
Proof.
  split; [|split; [reflexivity|split; [reflexivity|]]].
  - rewrite c83_flux; [|intros; apply exPure|apply exMono|lra|lra|apply exInner; left; reflexivity|reflexivity]. f_equal.
    unfold xeRate, amount, exOrigin, exOut, exC, exGrid. cbn [Rsum oC oD nth Nat.sub Nat.add INR Nat.modulo Nat.divmod fst snd]. lra.
  - unfold xeRate, amount, exOrigin, exOut, exC, exGrid. cbn [Rsum oC oD nth Nat.sub Nat.add INR Nat.modulo Nat.divmod fst snd]. lra.
Qed.
Example c83_accumulated_ok : exists st', xenonRun false 2 exOrigin exGrid 5 3 1 3 1 [0; 1]%nat (parts exProcs [(2, 1, 0)%nat]) [exOut 0; exOut 4; exOut 1] (Xenon 0 (fun _ => 0) (fun _ => 0)) = Some st' /\
  printedXe 3 1 3 1 st' = 200 / 3.
Proof.
  destruct (c83_accumulated false 2 exOrigin exGrid 5 3 1 3 1 [0; 1]%nat exProcs [(2, 1, 0)%nat] exCover exInner exMono (fun l _ => exPure l) ltac:(lra) ltac:(lra) ltac:(lia) ltac:(lia)
    [exOut 0; exOut 4; exOut 1] (Xenon 0 (fun _ => 0) (fun _ => 0))) as (st' & E & F).
  exists st'. split; [exact E|]. rewrite F. unfold printedXe, weight, width, xeRate, amount, exOrigin, exOut, exC, exGrid.
  cbn [combine nXe prv odt Rsum oC oD nth Nat.sub Nat.add INR Nat.modulo Nat.divmod fst snd]. lra.
Qed.
Example c83_balance_ok : let o := exOut 1 in
  NoDup [(2, 1, 0)%nat] /\ (forall j k, oSurf o j k = 0%nat) /\ (forall l i, oD o l i = oD o l 0%nat) /\ (forall i, oT o i = oT o 0%nat) /\ 0 < oT o 0%nat /\
  (forall l j k, oC o l j k 0%nat = 0) /\ (forall l j k, oC o l j k 4%nat = 0) /\ (forall l xi j k, In (xi, j, k) [(2, 1, 0)%nat] -> oC o l j k xi = 0).
Proof.
  cbv zeta. split; [constructor; [intros []|constructor]|]. do 3 (split; [reflexivity|]). split; [cbn; lra|].
  split; [intros l [|[|[|j]]] k; reflexivity|]. split; [intros l [|[|[|j]]] k; reflexivity|]. intros l xi j k [E|[]]. injection E as <- <- <-. reflexivity.
Qed.
Example c83_radius_ok : (forall j k xi : nat, (1 / 2) * INR (j + xi) <= 2 * INR (j + xi) <= 3 * INR (j + xi)) /\
  1 / 10 ^ 16 < 3 * 1 * boxSum exGrid 5 3 1 (fun j k xi => INR (j + xi)).
Proof.
  split; [intros j k xi; pose proof (pos_INR (j + xi)); lra|]. unfold boxSum, width, exGrid. cbn [seq Rsum Nat.add INR].
  apply Rle_lt_trans with 1; [|lra]. apply Rmult_le_reg_r with (10 ^ 16); [apply pow_lt; lra|]. unfold Rdiv. rewrite Rmult_assoc, Rinv_l by (apply pow_nonzero; lra). rewrite !Rmult_1_l. apply pow_R1_Rle. lra.
Qed.
Example c83_init_ok : let ca := initGB (fun c => c 0%nat + 2 * c 1%nat) (parts exProcs [(2, 1, 0); (1, 2, 0)]%nat) ((fun g c => INR (fst (fst g) + c)), (fun _ => 0)) in
  snd ca (2, 1, 0)%nat = 8 /\ fst ca (2, 1, 0)%nat 0%nat = 0 /\ snd ca (1, 2, 0)%nat = 5 /\ fst ca (3, 2, 0)%nat 1%nat = 4.
Proof.
  cbv zeta. unfold initGB, parts, exProcs, setLocations. cbn [map fold_left setLocation mine owns inside xs xm ys ym zs zm Nat.max Nat.leb Nat.ltb Nat.add andb app fst snd set pointEqb Nat.eqb INR].
  repeat split; lra.
Qed.

(** ** Where the output is wrong *)
(** A location given twice counts twice. *)
Theorem c83_twice_refuted three ns origin grid nX nY nZ hy hz dif procs locs os st :
  cover procs nX nY nZ -> (forall g, In g locs -> inner three nX nY nZ g) -> (forall i, grid i < grid (S i)) ->
  (forall l, In l dif -> pure ns origin l) -> (0 < nY)%nat -> (0 < nZ)%nat -> hy <> 0 -> hz <> 0 ->
  exists s1 s2, xenonRun three ns origin grid nX nY nZ hy hz dif (parts procs locs) os st = Some s1 /\
    xenonRun three ns origin grid nX nY nZ hy hz dif (parts procs (locs ++ locs)) os st = Some s2 /\
    printedXe nY nZ hy hz s2 - printedXe nY nZ hy hz st = 2 * (printedXe nY nZ hy hz s1 - printedXe nY nZ hy hz st).
Proof.
  intros Hc Hi Hg Hp HY HZ Hy Hz.
  destruct (c83_accumulated three ns origin grid nX nY nZ hy hz dif procs locs Hc Hi Hg Hp Hy Hz HY HZ os st) as (s1 & E1 & F1).
  destruct (c83_accumulated three ns origin grid nX nY nZ hy hz dif procs (locs ++ locs) Hc ltac:(intros g H; apply in_app_or in H; destruct H; auto) Hg Hp Hy Hz HY HZ os st) as (s2 & E2 & F2).
  exists s1, s2. split; [exact E1|]. split; [exact E2|]. rewrite F1, F2. destruct os as [|o r]; [unfold Rdiv; ring|]. rewrite Rsum_app.
  rewrite (Rsum_ext (combine (o :: r) r) (fun oo => odt (snd oo) * Rsum (locs ++ locs) _)
     (fun oo => 2 * (odt (snd oo) * Rsum locs (fun g => weight grid g * xeRate three origin grid nY nZ hy hz dif (fst oo) g)))).
  - rewrite Rsum_scal. unfold Rdiv. ring.
  - intros oo _. rewrite Rsum_app. ring.
Qed.
Print Assumptions c83_twice_refuted.
(** A boundary in the first row (or plane), where the grid continues on the other side: the monitor reads outside the array, whereas a
    boundary in the last row is served. *)
Theorem c83_first_refuted three ns origin grid nX nY nZ hy hz dif procs locs o r st :
  cover procs nX nY nZ -> (forall g, In g locs -> inBox nX nY nZ g) ->
  (exists xi k, In (xi, 0%nat, k) locs) \/ (three = true /\ exists xi j, In (xi, j, 0%nat) locs) ->
  xenonRun three ns origin grid nX nY nZ hy hz dif (parts procs locs) (o :: r) st = None.
Proof.
  intros Hc Hi H. assert (B : exists g, In g locs /\ forall p, gbRate three ns origin grid nX nY nZ hy hz dif p o g = None).
  { destruct H as [(xi & k & I)|(-> & xi & j & I)]; eexists; (split; [exact I|]); intros p; unfold gbRate; rewrite Nat.eqb_refl; cbn [andb]; rewrite !Bool.orb_true_r; reflexivity. }
  destruct B as (g & I & B). destruct (the_owner nX nY nZ procs Hc g (Hi g I)) as (p & Hp & Hm).
  cbn [xenonRun]. unfold xenonAt.
  assert (G : forall l v, In g l -> gbFluxes three ns origin grid nX nY nZ hy hz dif p l o v = None).
  { induction l as [|h l IH]; intros v J; [destruct J|]. cbn [gbFluxes]. destruct J as [->|J]; [rewrite Hm, B; reflexivity|].
    destruct (mine p h); [|apply IH, J]. destruct (gbRate _ _ _ _ _ _ _ _ _ _ p o h); [apply IH, J|reflexivity]. }
  assert (A : forall l v, In p l -> allFluxes three ns origin grid nX nY nZ hy hz dif (parts l locs) o v = None).
  { induction l as [|q l IH]; intros v J; [destruct J|]. cbn [parts map allFluxes fst snd]. destruct J as [->|J].
    - rewrite G; [reflexivity|]. assert (K : In g (filter (mine p) (setLocations p locs))) by (rewrite kept; apply filter_In; auto). apply filter_In in K. tauto.
    - destruct (gbFluxes _ _ _ _ _ _ _ _ _ _ q _ o v); [apply IH, J|reflexivity]. }
  rewrite A by exact Hp. reflexivity.
Qed.
Print Assumptions c83_first_refuted.
Example c83_first_ok : (forall g, In g [(2, 0, 0)%nat] -> inBox 5 3 1 g) /\ inner false 5 3 1 (2, 2, 0)%nat.
Proof. split; [intros g [<-|[]]; cbn; lia|]. cbn. repeat split; lia || discriminate. Qed.
