(** C76: the retention output in two and three dimensions. *)
From Verif Require Import Retention3Model RetentionProofs Solver1DProofs StencilProofs.
From Verif Require RetentionModel Properties_Retention.
Open Scope R_scope.

(** ** Reference *)
Definition amount (origin : nat -> list Z) (l s : nat) : R := IZR (nth s (origin l) 0%Z).
Definition pure (ns : nat) (origin : nat -> list Z) (l : nat) : Prop :=
  exists s, (s < ns)%nat /\ nth s (origin l) 0%Z <> 0%Z /\ forall t, t <> s -> nth t (origin l) 0%Z = 0%Z.
(** Every point of the box belongs to exactly one process. *)
Definition has (p : proc) (j k xi : nat) : Prop :=
  (xs p <= xi < xs p + xm p)%nat /\ (ys p <= j < ys p + ym p)%nat /\ (zs p <= k < zs p + zm p)%nat.
Definition cover (procs : list proc) (nX nY nZ : nat) : Prop :=
  (forall p, In p procs -> (xs p + xm p <= nX /\ ys p + ym p <= nY /\ zs p + zm p <= nZ)%nat) /\
  (forall j k xi, (j < nY)%nat -> (k < nZ)%nat -> (xi < nX)%nat ->
     exists l1 p l2, procs = l1 ++ p :: l2 /\ has p j k xi /\ forall q, In q (l1 ++ l2) -> ~ has q j k xi).
(** The mean over the columns *)
Definition mean (nY nZ : nat) (f : nat -> nat -> R) : R :=
  Rsum (seq 0 nZ) (fun k => Rsum (seq 0 nY) (fun j => f j k)) / (INR nY * INR nZ).

(** ** Lemmas *)
Lemma inside_iff a n i : inside a n i = true <-> (a <= i < a + n)%nat.
Proof. unfold inside. rewrite Bool.andb_true_iff, Nat.leb_le, Nat.ltb_lt. reflexivity. Qed.
Lemma owns_iff p j k xi : owns p j k xi = true <-> has p j k xi.
Proof. unfold owns, has. rewrite !Bool.andb_true_iff, !inside_iff. tauto. Qed.
Lemma owns_not p j k xi : owns p j k xi = false <-> ~ has p j k xi.
Proof. rewrite <- owns_iff. destruct (owns p j k xi); split; try congruence; tauto. Qed.
Lemma window a n N f : (a + n <= N)%nat -> Rsum (seq a n) f = Rsum (seq 0 N) (fun i => if inside a n i then f i else 0).
Proof.
  intros H. replace N with (a + n + (N - a - n))%nat by lia. rewrite seq_band, !Rsum_app.
  rewrite (Rsum_zero (seq 0 a)), (Rsum_zero (seq (a + n) _)).
  - rewrite Rplus_0_l, Rplus_0_r. apply Rsum_ext. intros i Hi. apply in_seq in Hi. destruct (inside a n i) eqn:E; [reflexivity|].
    assert (inside a n i = true) by (apply inside_iff; lia). congruence.
  - intros i Hi. apply in_seq in Hi. destruct (inside a n i) eqn:E; [apply inside_iff in E; lia|reflexivity].
  - intros i Hi. apply in_seq in Hi. destruct (inside a n i) eqn:E; [apply inside_iff in E; lia|reflexivity].
Qed.
Lemma fold_sum A (l : list A) (g : R -> A -> R) (f : A -> R) : (forall a x, In x l -> g a x = a + f x) -> forall a, fold_left g l a = a + Rsum l f.
Proof.
  induction l as [|x l IH]; intros H a; cbn [fold_left Rsum]; [lra|]. rewrite H by (left; reflexivity). rewrite IH; [lra|]. intros; apply H; right; assumption.
Qed.
Lemma one_of procs (b : proc -> bool) (x : R) l1 p l2 : procs = l1 ++ p :: l2 -> b p = true -> (forall q, In q (l1 ++ l2) -> b q = false) ->
  Rsum procs (fun q => if b q then x else 0) = x.
Proof.
  intros -> Hp Hq. rewrite Rsum_app. cbn [Rsum]. rewrite Hp, !Rsum_zero; [lra| |]; intros q H; rewrite Hq; auto; apply in_app_iff; auto.
Qed.

(** ** The content *)
Theorem c76_content grid nX nY nZ hy hz lo ro surf tot procs s : cover procs nX nY nZ -> (0 < nY)%nat -> (0 < nZ)%nat -> hy <> 0 -> hz <> 0 ->
  (forall j k, (j < nY)%nat -> (k < nZ)%nat -> (surf j k + lo + ro <= nX)%nat) ->
  content grid nX nY nZ hy hz lo ro surf tot procs s =
  mean nY nZ (fun j k => Rsum (seq (surf j k + lo) (nX - surf j k - lo - ro)) (fun xi => tot j k xi s * (grid (S xi) - grid xi))).
Proof.
  intros [HB HO] HY HZ Hy Hz HS. unfold content, mean, area. rewrite mult_INR.
  assert (INR nY <> 0) by (apply not_0_INR; lia). assert (INR nZ <> 0) by (apply not_0_INR; lia).
  set (f := fun j k xi => if (xi <? surf j k + lo)%nat || (nX - ro <=? xi)%nat then 0 else tot j k xi s * (grid (xi + 1)%nat - grid xi) * hy * hz).
  assert (E : forall p, In p procs -> myContent grid nX hy hz lo ro surf tot s p =
    Rsum (seq 0 nZ) (fun k => Rsum (seq 0 nY) (fun j => Rsum (seq 0 nX) (fun xi => if owns p j k xi then f j k xi else 0)))).
  { intros p Hp. destruct (HB p Hp) as (B1 & B2 & B3). unfold myContent.
    rewrite (fold_sum _ _ _ (fun k => Rsum (seq (ys p) (ym p)) (fun j => Rsum (seq (xs p) (xm p)) (f j k)))).
    - rewrite Rplus_0_l, (window _ _ nZ) by exact B3. apply Rsum_ext. intros k _. rewrite (window _ _ nY) by exact B2.
      destruct (inside (zs p) (zm p) k) eqn:EK.
      + apply Rsum_ext. intros j _. rewrite (window _ _ nX) by exact B1. destruct (inside (ys p) (ym p) j) eqn:EJ.
        * apply Rsum_ext. intros xi _. unfold owns. rewrite EJ, EK, !Bool.andb_true_r. reflexivity.
        * symmetry. apply Rsum_zero. intros xi _. unfold owns. rewrite EJ, Bool.andb_false_r. reflexivity.
      + symmetry. apply Rsum_zero. intros j _. apply Rsum_zero. intros xi _. unfold owns. rewrite EK, Bool.andb_false_r. reflexivity.
    - intros a k _. apply fold_sum. intros b j _. apply fold_sum. intros c xi _. unfold f. destruct (_ || _)%bool; lra. }
  rewrite (fold_sum _ _ _ (fun x => x)) by reflexivity. rewrite Rplus_0_l, Rsum_map. erewrite (Rsum_ext procs) by exact E.
  rewrite Rsum_swap.
  assert (E2 : forall k, In k (seq 0 nZ) -> Rsum procs (fun p => Rsum (seq 0 nY) (fun j => Rsum (seq 0 nX) (fun xi => if owns p j k xi then f j k xi else 0))) =
    Rsum (seq 0 nY) (fun j => Rsum (seq (surf j k + lo) (nX - surf j k - lo - ro)) (fun xi => tot j k xi s * (grid (S xi) - grid xi))) * (hy * hz)).
  { intros k Hk. apply in_seq in Hk. rewrite Rsum_swap, <- Rsum_scal_r. apply Rsum_ext. intros j Hj. apply in_seq in Hj. rewrite Rsum_swap.
    rewrite (Rsum_ext _ _ (f j k)).
    - specialize (HS j k ltac:(lia) ltac:(lia)). set (m := (surf j k + lo)%nat) in *. replace (nX - surf j k - lo - ro)%nat with (nX - m - ro)%nat by lia.
      rewrite (window m _ nX), <- Rsum_scal_r by lia. apply Rsum_ext. intros xi Hx. apply in_seq in Hx. unfold f. fold m. destruct (inside m (nX - m - ro) xi) eqn:EI.
      + apply inside_iff in EI. destruct (Nat.ltb_spec xi m); [lia|]. destruct (Nat.leb_spec (nX - ro) xi); [lia|]. cbn [orb]. replace (xi + 1)%nat with (S xi) by lia. ring.
      + destruct (Nat.ltb_spec xi m); [cbn [orb]; lra|]. destruct (Nat.leb_spec (nX - ro) xi); [cbn [orb]; lra|].
        assert (inside m (nX - m - ro) xi = true) by (apply inside_iff; lia). congruence.
    - intros xi Hx. apply in_seq in Hx. destruct (HO j k xi) as (l1 & p & l2 & EP & H1 & H2); [lia..|].
      apply (one_of procs (fun p => owns p j k xi) _ l1 p l2 EP); [apply owns_iff, H1|intros q Hq; apply owns_not, H2, Hq]. }
  rewrite (Rsum_ext _ _ _ E2), Rsum_scal_r. field. auto.
Qed.
Print Assumptions c76_content.
Definition exProcs := [Proc 0 2 0 2 0 1; Proc 2 3 0 2 0 1; Proc 0 5 2 1 0 1].
Lemma exCover : cover exProcs 5 3 1.
Proof.
  split; [intros p [<-|[<-|[<-|[]]]]; cbn; lia|]. intros j k xi Hj Hk Hx. destruct (le_lt_dec 2 j); [|destruct (le_lt_dec 2 xi)].
  - exists [Proc 0 2 0 2 0 1; Proc 2 3 0 2 0 1], (Proc 0 5 2 1 0 1), []. split; [reflexivity|]. unfold has. cbn. split; [lia|]. intros q [<-|[<-|[]]]; cbn; lia.
  - exists [Proc 0 2 0 2 0 1], (Proc 2 3 0 2 0 1), [Proc 0 5 2 1 0 1]. split; [reflexivity|]. unfold has. cbn. split; [lia|]. intros q [<-|[<-|[]]]; cbn; lia.
  - exists [], (Proc 0 2 0 2 0 1), [Proc 2 3 0 2 0 1; Proc 0 5 2 1 0 1]. split; [reflexivity|]. unfold has. cbn. split; [lia|]. intros q [<-|[<-|[]]]; cbn; lia.
Qed.
Example c76_content_ok : content INR 5 3 1 2 1 1 1 (fun j _ => Nat.min j 1) (fun j k xi s => INR (j + xi)) exProcs 0 = 22 / 3.
Proof.
  rewrite c76_content by (try apply exCover; try lia; try lra; intros j k _ _; destruct (Nat.min_spec j 1) as [[? ->]|[? ->]]; lia).
  unfold mean. cbn [seq Rsum Nat.min Nat.add Nat.sub INR]. lra.
Qed.

(** ** The reported fluxes *)
(** Through a surface in front of column (j, k), per unit of area, with the coefficients of the first empty point; and at the other side. *)
Section FLUX.
Variables (origin : nat -> list Z) (grid : nat -> R) (nX : nat) (dif : list nat) (adv : list (nat * R)).
Definition leftFlux (j k : nat) (o : out) (s : nat) : R :=
  let x := oSurf o j k in
  Rsum dif (fun l => amount origin l s * (4 / (grid (x + 2)%nat - grid x + (grid (x + 3)%nat - grid (x + 1)%nat)) * oD o l x * oC o l j k (x + 1)%nat)) +
  Rsum adv (fun a => amount origin (fst a) s *
    (3 * snd a * oD o (fst a) x * oC o (fst a) j k (x + 1)%nat / (kB * oT o x * ((grid (x + 2)%nat - grid (x + 1)%nat) / 2) ^ 4))).
Definition rightFlux (j k : nat) (o : out) (s : nat) : R :=
  Rsum dif (fun l => amount origin l s *
    (4 / (grid (nX - 1)%nat - grid (nX - 3)%nat + (grid nX - grid (nX - 2)%nat)) * oD o l (nX - 3)%nat * oC o l j k (nX - 2)%nat)).
End FLUX.
Lemma surface_flux ns origin grid nX hy hz dif adv j k p o s : (forall i, grid i < grid (S i)) ->
  (forall l, In l dif -> pure ns origin l) -> (forall a, In a adv -> pure ns origin (fst a)) ->
  has p j k (oSurf o j k + 1) -> (oSurf o j k + 1 < nX)%nat -> 0 < oT o (oSurf o j k) ->
  oUsed o (ys p + ym p - 1) (zs p + zm p - 1) = oSurf o j k ->
  surfFlux ns origin grid nX hy hz dif adv j k p o s = hy * hz * leftFlux origin grid dif adv j k o s.
Proof.
  intros Hg Hd Ha Hp Hn HT HU. unfold surfFlux, location. rewrite HU. destruct Hp as ((P1 & P2) & _). set (x := oSurf o j k) in *.
  assert (E : forall v : nat -> R, stored p v (x + 1 - xs p) = v x) by (intros v; unfold stored; f_equal; lia).
  rewrite adv_pure; [|rewrite E; exact HT|exact Ha]. rewrite diff_pure by exact Hd. rewrite Rplus_0_l. unfold leftFlux. fold x. pose proof kB_pos as HK.
  rewrite Rmult_plus_distr_l, <- !Rsum_scal. pose proof (Hg x) as G0. pose proof (Hg (S x)) as G1. pose proof (Hg (S (S x))) as G2.
  replace (x + 1)%nat with (S x) in * by lia. replace (x + 2)%nat with (S (S x)) by lia. replace (x + 3)%nat with (S (S (S x))) by lia.
  f_equal; apply Rsum_ext; intros l Hi; rewrite ?E.
  - unfold factor, hxLeft, hxRight, RetentionProofs.amount, amount. destruct (Nat.ltb_spec (S x) nX); [|lia]. destruct (Nat.leb_spec 1 (S x)); [|lia].
    replace (S x + 1)%nat with (S (S x)) by lia. replace (S x - 1)%nat with x by lia. replace (S x + 2)%nat with (S (S (S x))) by lia.
    field. lra.
  - unfold advFactor, RetentionProofs.amount, amount. replace (S x + 1)%nat with (S (S x)) by lia.
    replace ((grid (S x) + grid (S (S x))) / 2 - grid 1%nat - (grid (S x) - grid 1%nat)) with ((grid (S (S x)) - grid (S x)) / 2) by lra.
    field. repeat split; lra.
Qed.
Lemma bulk_flux ns origin grid nX hy hz dif j k p o s : (forall i, grid i < grid (S i)) -> (3 <= nX)%nat ->
  (forall l, In l dif -> pure ns origin l) -> has p j k (nX - 2) ->
  bulkFlux ns origin grid nX hy hz dif j k p o s = hy * hz * rightFlux origin grid nX dif j k o s.
Proof.
  intros Hg Hn Hd ((P1 & P2) & _). unfold bulkFlux. rewrite diff_pure by exact Hd. rewrite Rplus_0_l. unfold rightFlux. rewrite <- Rsum_scal. apply Rsum_ext. intros l Hl.
  unfold stored. replace (xs p + (nX - 2 - xs p) - 1)%nat with (nX - 3)%nat by lia.
  unfold factor, hxLeft, hxRight, amount, RetentionProofs.amount.
  destruct (Nat.ltb_spec (nX - 2) nX); [|lia]. destruct (Nat.leb_spec 1 (nX - 2)); [|lia].
  replace (nX - 2 + 1)%nat with (nX - 1)%nat by lia. replace (nX - 2 - 1)%nat with (nX - 3)%nat by lia. replace (nX - 2 + 2)%nat with nX by lia.
  pose proof (Hg (nX - 3)%nat). pose proof (Hg (nX - 2)%nat). pose proof (Hg (nX - 1)%nat).
  replace (S (nX - 3)) with (nX - 2)%nat in * by lia. replace (S (nX - 2)) with (nX - 1)%nat in * by lia. replace (S (nX - 1)) with nX in * by lia. field. repeat split; lra.
Qed.

(** ** Accumulation *)
Lemma owner_rank l1 l2 : (forall b, In b (l1 ++ l2) -> b = false) ->
  fold_left (fun a rb => (a + if snd rb : bool then fst rb else 0)%nat) (combine (seq 0 (length (l1 ++ true :: l2))) (l1 ++ true :: l2)) 0%nat = length l1.
Proof.
  intros H. assert (Z : forall l n a, (forall b, In b l -> b = false) ->
    fold_left (fun a rb => (a + if snd rb : bool then fst rb else 0)%nat) (combine (seq n (length l)) l) a = a).
  { induction l as [|b l IH]; intros n a Hl; cbn [length seq combine fold_left]; [reflexivity|]. cbn [fst snd]. rewrite (Hl b) by (left; reflexivity).
    rewrite IH by (intros; apply Hl; right; assumption). lia. }
  rewrite app_length. cbn [length]. rewrite seq_app, combine_app by (rewrite seq_length; reflexivity). rewrite fold_left_app, Z by (intros; apply H, in_app_iff; auto).
  cbn [seq combine fold_left fst snd]. rewrite Z by (intros; apply H, in_app_iff; auto). lia.
Qed.
Lemma monitorAt_cover at_ skip flux j k procs t o st l1 p l2 : procs = l1 ++ p :: l2 -> has p j k (at_ o) -> (forall q, In q (l1 ++ l2) -> ~ has q j k (at_ o)) ->
  monitorAt at_ skip flux j k procs t o (repeat st (length procs)) = Some (repeat (RetentionModel.local skip t (odt o) (flux p o) st) (length procs)).
Proof.
  intros -> Hp Hq. unfold monitorAt, exchange. apply owns_iff in Hp. rewrite map_app. cbn [map]. rewrite Hp.
  rewrite owner_rank.
  - rewrite combine_repeat, !map_map, map_length, map_app. cbn [map fst snd]. rewrite Hp.
    rewrite nth_error_app2 by (rewrite map_length; lia). rewrite map_length, Nat.sub_diag. cbn [nth_error].
    rewrite map_app. cbn [map]. rewrite !map_map, !map_const, app_length. cbn [length]. rewrite repeat_app. reflexivity.
  - intros b Hb. rewrite <- map_app in Hb. apply in_map_iff in Hb as (q & <- & Hb). apply owns_not, Hq, Hb.
Qed.
Lemma monitor_cover at_ skip flux nX nY nZ j k procs (f : out -> nat -> R) : cover procs nX nY nZ -> (j < nY)%nat -> (k < nZ)%nat ->
  forall os, (forall o, In o os -> (at_ o < nX)%nat) -> (forall o p s, In o os -> In p procs -> has p j k (at_ o) -> flux p o s = f o s) -> forall t st,
  exists st', monitor at_ skip flux j k procs t os (repeat st (length procs)) = Some (repeat st' (length procs)) /\
  (forall s, skip s = true -> RetentionModel.total st' s = RetentionModel.total st s /\ RetentionModel.prev st' s = RetentionModel.prev st s) /\
  (forall s, skip s = false ->
     RetentionModel.total st' s = RetentionModel.total st s + match os with
       | [] => 0
       | o :: r => (if (0 <? t)%nat then RetentionModel.prev st s * odt o else 0) + Rsum (combine os r) (fun oo => f (fst oo) s * odt (snd oo))
       end).
Proof.
  intros [_ HO] Hj Hk. induction os as [|o os IH]; intros In_ same t st.
  - exists st. cbn [monitor]. split; [reflexivity|]. split; intros; [auto|lra].
  - cbn [monitor]. destruct (HO j k (at_ o) Hj Hk) as (l1 & p & l2 & EP & Hp & Hq); [apply In_; left; reflexivity|].
    rewrite (monitorAt_cover at_ skip flux j k procs t o st l1 p l2 EP Hp Hq).
    destruct (IH (fun o' Hi => In_ o' (or_intror Hi)) (fun o' q s Hi => same o' q s (or_intror Hi)) (S t) (RetentionModel.local skip t (odt o) (flux p o) st)) as (st' & E' & Hsk & Hn).
    exists st'. split; [exact E'|]. split.
    + intros s Hs. destruct (Hsk s Hs) as [A B]. cbn [RetentionModel.local RetentionModel.total RetentionModel.prev] in A, B. rewrite Hs in A, B. auto.
    + intros s Hs. rewrite (Hn s Hs). cbn [RetentionModel.local RetentionModel.total RetentionModel.prev]. rewrite Hs.
      destruct os as [|o2 os]; cbn [combine Rsum fst snd].
      * destruct (0 <? t)%nat; lra.
      * rewrite same; [|left; reflexivity|rewrite EP; apply in_elt|exact Hp]. change (0 <? S t)%nat with true. cbv iota. destruct (0 <? t)%nat; lra.
Qed.
Lemma printed_mean nY nZ hy hz st s : (0 < nY)%nat -> (0 < nZ)%nat -> hy <> 0 -> hz <> 0 ->
  printed nY nZ hy hz st s = mean nY nZ (fun j k => RetentionModel.total (st j k) s / (hy * hz)).
Proof.
  intros HY HZ Hy Hz. unfold printed, mean, area. rewrite mult_INR. assert (INR nY <> 0) by (apply not_0_INR; lia). assert (INR nZ <> 0) by (apply not_0_INR; lia).
  rewrite (fold_sum _ _ _ (fun k => Rsum (seq 0 nY) (fun j => RetentionModel.total (st j k) s))).
  - rewrite Rplus_0_l. rewrite (Rsum_ext (seq 0 nZ) (fun k => Rsum (seq 0 nY) (fun j => RetentionModel.total (st j k) s / (hy * hz)))
      (fun k => Rsum (seq 0 nY) (fun j => RetentionModel.total (st j k) s) / (hy * hz))) by (intros; apply Rsum_div). rewrite Rsum_div. field. auto.
  - intros a k _. apply fold_sum. reflexivity.
Qed.
Lemma mean_ext nY nZ f g : (forall j k, (j < nY)%nat -> (k < nZ)%nat -> f j k = g j k) -> mean nY nZ f = mean nY nZ g.
Proof.
  intros H. unfold mean. f_equal. apply Rsum_ext. intros k Hk. apply in_seq in Hk. apply Rsum_ext. intros j Hj. apply in_seq in Hj. apply H; lia.
Qed.
Lemma mean_plus nY nZ f g : mean nY nZ (fun j k => f j k + g j k) = mean nY nZ f + mean nY nZ g.
Proof. unfold mean. erewrite (Rsum_ext (seq 0 nZ)) by (intros; apply Rsum_plus). rewrite Rsum_plus. unfold Rdiv. ring. Qed.
Lemma mean_sum A nY nZ (l : list A) f : mean nY nZ (fun j k => Rsum l (fun x => f x j k)) = Rsum l (fun x => mean nY nZ (f x)).
Proof.
  unfold mean. rewrite (Rsum_div l). f_equal. erewrite (Rsum_ext (seq 0 nZ)) by (intros; apply Rsum_swap). apply Rsum_swap.
Qed.
Lemma mean_scal nY nZ c f : mean nY nZ (fun j k => c * f j k) = c * mean nY nZ f.
Proof. unfold mean. erewrite (Rsum_ext (seq 0 nZ)) by (intros; apply Rsum_scal). rewrite Rsum_scal. unfold Rdiv. ring. Qed.

(** All processes end with the same totals, whoever owned the surface points meanwhile; the output is the mean over the columns of what went
    through the surface in front of each. *)
Definition flat (o : out) : Prop := exists x, forall j k, oSurf o j k = x /\ oUsed o j k = x.
Theorem c76_accumulated ns origin grid nX nY nZ hy hz dif adv procs moving specI os st :
  cover procs nX nY nZ -> (0 < nX)%nat -> (0 < nY)%nat -> (0 < nZ)%nat -> hy <> 0 -> hz <> 0 -> (forall i, grid i < grid (S i)) ->
  (forall l, In l dif -> pure ns origin l) -> (forall a, In a adv -> pure ns origin (fst a)) ->
  (forall o, In o os -> (adv = [] \/ flat o) /\ forall j k, (oSurf o j k + 1 < nX)%nat /\ 0 < oT o (oSurf o j k)) ->
  exists st', (forall j k, (j < nY)%nat -> (k < nZ)%nat ->
      surface ns origin grid nX hy hz dif adv moving specI j k procs 0 os (repeat (st j k) (length procs)) = Some (repeat (st' j k) (length procs))) /\
    forall s, printed nY nZ hy hz st' s = printed nY nZ hy hz st s + if Nat.eqb s specI && moving then 0 else
      Rsum (combine os (tl os)) (fun oo => odt (snd oo) * mean nY nZ (fun j k => leftFlux origin grid dif adv j k (fst oo) s)).
Proof.
  intros HC HX HY HZ Hy Hz Hg Hd Ha HO.
  assert (M : forall j k, (j < nY)%nat -> (k < nZ)%nat -> exists st', surface ns origin grid nX hy hz dif adv moving specI j k procs 0 os (repeat (st j k) (length procs)) = Some (repeat st' (length procs)) /\
     forall s, RetentionModel.total st' s = RetentionModel.total (st j k) s + if Nat.eqb s specI && moving then 0 else Rsum (combine os (tl os)) (fun oo => hy * hz * leftFlux origin grid dif adv j k (fst oo) s * odt (snd oo))).
  { intros j k Hj Hk. unfold surface.
    destruct (monitor_cover (fun o => (oSurf o j k + 1)%nat) (fun i => Nat.eqb i specI && moving)%bool (surfFlux ns origin grid nX hy hz dif adv j k) nX nY nZ j k procs
      (fun o s => hy * hz * leftFlux origin grid dif adv j k o s) HC Hj Hk os) with (t := 0%nat) (st := st j k) as (st' & E & S1 & S2).
    - intros o Ho. apply (HO o Ho).
    - intros o p s Ho Hp Hh. destruct (HO o Ho) as [F P]. destruct (P j k). destruct F as [->|[x F]].
      + (* without advection the location does not matter *)
        transitivity (surfFlux ns origin grid nX hy hz dif [] j k p (Out (odt o) (oC o) (oD o) (oT o) (oSurf o) (fun _ _ => oSurf o j k)) s); [reflexivity|].
        rewrite surface_flux; auto.
      + apply surface_flux; auto. rewrite (proj1 (F j k)). apply F.
    - exists st'. split; [exact E|]. intros s. destruct (Nat.eqb s specI && moving)%bool eqn:ES.
      + rewrite (proj1 (S1 s ES)). lra.
      + rewrite (S2 s ES). destruct os as [|o r]; cbn [tl combine Rsum]; [reflexivity|]. change (0 <? 0)%nat with false. cbv iota. rewrite Rplus_0_l. reflexivity. }
  set (run := fun j k => surface ns origin grid nX hy hz dif adv moving specI j k procs 0 os (repeat (st j k) (length procs))).
  assert (NE : procs <> []) by (destruct HC as [_ HO']; destruct (HO' 0%nat 0%nat 0%nat HY HZ HX) as (l1 & p & l2 & -> & _); destruct l1; discriminate).
  exists (fun j k => match run j k with Some (x :: _) => x | _ => st j k end). split.
  - intros j k Hj Hk. destruct (M j k Hj Hk) as (x & E & _). fold (run j k) in E |- *. rewrite E. destruct procs; [contradiction|reflexivity].
  - intros s. rewrite !printed_mean by assumption.
    rewrite (mean_ext nY nZ _ (fun j k => RetentionModel.total (st j k) s / (hy * hz) + if Nat.eqb s specI && moving then 0 else Rsum (combine os (tl os)) (fun oo => odt (snd oo) * leftFlux origin grid dif adv j k (fst oo) s))).
    + rewrite mean_plus. f_equal. destruct (Nat.eqb s specI && moving)%bool.
      * unfold mean. rewrite Rsum_zero; [unfold Rdiv; ring|]. intros. apply Rsum_0.
      * rewrite mean_sum. apply Rsum_ext. intros oo _. apply mean_scal.
    + intros j k Hj Hk. destruct (M j k Hj Hk) as (x & E & T). fold (run j k) in E. rewrite E. destruct procs as [|p0 pr]; [contradiction|]. cbn [length repeat]. rewrite T.
      destruct (Nat.eqb s specI && moving)%bool; [field; auto|]. rewrite Rdiv_plus_distr. f_equal. rewrite <- Rsum_div. apply Rsum_ext. intros oo _. field. auto.
Qed.
Print Assumptions c76_accumulated.

Theorem c76_bulk_accumulated ns origin grid nX nY nZ hy hz dif procs os st :
  cover procs nX nY nZ -> (3 <= nX)%nat -> (0 < nY)%nat -> (0 < nZ)%nat -> hy <> 0 -> hz <> 0 -> (forall i, grid i < grid (S i)) ->
  (forall l, In l dif -> pure ns origin l) ->
  exists st', (forall j k, (j < nY)%nat -> (k < nZ)%nat ->
      bulk ns origin grid nX hy hz dif j k procs 0 os (repeat (st j k) (length procs)) = Some (repeat (st' j k) (length procs))) /\
    forall s, printed nY nZ hy hz st' s = printed nY nZ hy hz st s +
      Rsum (combine os (tl os)) (fun oo => odt (snd oo) * mean nY nZ (fun j k => rightFlux origin grid nX dif j k (fst oo) s)).
Proof.
  intros HC HX HY HZ Hy Hz Hg Hd.
  assert (M : forall j k, (j < nY)%nat -> (k < nZ)%nat -> exists st', bulk ns origin grid nX hy hz dif j k procs 0 os (repeat (st j k) (length procs)) = Some (repeat st' (length procs)) /\
     forall s, RetentionModel.total st' s = RetentionModel.total (st j k) s + Rsum (combine os (tl os)) (fun oo => hy * hz * rightFlux origin grid nX dif j k (fst oo) s * odt (snd oo))).
  { intros j k Hj Hk. unfold bulk.
    destruct (monitor_cover (fun _ => (nX - 2)%nat) (fun _ => false) (bulkFlux ns origin grid nX hy hz dif j k) nX nY nZ j k procs
      (fun o s => hy * hz * rightFlux origin grid nX dif j k o s) HC Hj Hk os) with (t := 0%nat) (st := st j k) as (st' & E & S1 & S2).
    - intros o Ho. lia.
    - intros o p s Ho Hp Hh. apply bulk_flux; auto.
    - exists st'. split; [exact E|]. intros s. rewrite (S2 s eq_refl). destruct os as [|o r]; cbn [tl combine Rsum]; [reflexivity|]. change (0 <? 0)%nat with false. cbv iota. rewrite Rplus_0_l. reflexivity. }
  set (run := fun j k => bulk ns origin grid nX hy hz dif j k procs 0 os (repeat (st j k) (length procs))).
  assert (NE : procs <> []) by (destruct HC as [_ HO']; destruct (HO' 0%nat 0%nat 0%nat HY HZ ltac:(lia)) as (l1 & p & l2 & -> & _); destruct l1; discriminate).
  exists (fun j k => match run j k with Some (x :: _) => x | _ => st j k end). split.
  - intros j k Hj Hk. destruct (M j k Hj Hk) as (x & E & _). fold (run j k) in E |- *. rewrite E. destruct procs; [contradiction|reflexivity].
  - intros s. rewrite !printed_mean by assumption.
    rewrite (mean_ext nY nZ _ (fun j k => RetentionModel.total (st j k) s / (hy * hz) + Rsum (combine os (tl os)) (fun oo => odt (snd oo) * rightFlux origin grid nX dif j k (fst oo) s))).
    + rewrite mean_plus, mean_sum. f_equal. apply Rsum_ext. intros oo _. apply mean_scal.
    + intros j k Hj Hk. destruct (M j k Hj Hk) as (x & E & T). fold (run j k) in E. rewrite E. destruct procs as [|p0 pr]; [contradiction|]. cbn [length repeat]. rewrite T.
      rewrite Rdiv_plus_distr. f_equal. rewrite <- Rsum_div. apply Rsum_ext. intros oo _. field. auto.
Qed.
Print Assumptions c76_bulk_accumulated.

(** ** The reported fluxes are what leaves *)
Lemma before_sum n f : Rsum (seq 0 n) (fun j => f (before n j)) = Rsum (seq 0 n) f.
Proof.
  destruct n as [|n]; [reflexivity|]. rewrite (Rsum_seq_S f). cbn [seq Rsum]. rewrite <- seq_shift, Rsum_map. unfold before at 1. cbn [Nat.eqb Nat.sub]. rewrite Nat.sub_0_r.
  rewrite Rplus_comm. f_equal. apply Rsum_ext. intros j _. unfold before. cbn [Nat.eqb Nat.sub]. rewrite Nat.sub_0_r. reflexivity.
Qed.
Lemma after_sum n f : Rsum (seq 0 n) (fun j => f (after n j)) = Rsum (seq 0 n) f.
Proof.
  destruct n as [|n]; [reflexivity|]. rewrite (Rsum_seq_S (fun j => f (after (S n) j))). cbn [seq Rsum]. rewrite <- seq_shift, Rsum_map. unfold after at 2. cbn [Nat.sub]. rewrite Nat.sub_0_r, Nat.eqb_refl.
  rewrite Rplus_comm. f_equal. apply Rsum_ext. intros j Hj. apply in_seq in Hj. unfold after. cbn [Nat.sub]. rewrite Nat.sub_0_r. destruct (Nat.eqb_spec j n); [lia|]. f_equal. lia.
Qed.
Lemma mean_lateral nY nZ sy sz (c : nat -> nat -> R) :
  mean nY nZ (fun j k => sy * (c (before nY j) k + c (after nY j) k - 2 * c j k) + sz * (c j (before nZ k) + c j (after nZ k) - 2 * c j k)) = 0.
Proof.
  unfold mean. assert (E : Rsum (seq 0 nZ) (fun k => Rsum (seq 0 nY) (fun j =>
    sy * (c (before nY j) k + c (after nY j) k - 2 * c j k) + sz * (c j (before nZ k) + c j (after nZ k) - 2 * c j k))) = 0); [|rewrite E; unfold Rdiv; ring].
  erewrite Rsum_ext; [|intros k _; apply Rsum_plus]. rewrite Rsum_plus.
  rewrite (Rsum_zero (seq 0 nZ) (fun k => Rsum (seq 0 nY) (fun j => sy * _))).
  - rewrite Rplus_0_l, Rsum_swap. apply Rsum_zero. intros j _. rewrite Rsum_scal, Rsum_minus, Rsum_plus, Rsum_scal, (before_sum nZ (c j)), (after_sum nZ (c j)). ring.
  - intros k _. rewrite Rsum_scal, Rsum_minus, Rsum_plus, Rsum_scal, (before_sum nY (fun j => c j k)), (after_sum nY (fun j => c j k)). ring.
Qed.
Theorem c76_rate ns origin g0 h nX nY nZ sy sz x dif adv o s :
  let grid := fun i => g0 + INR i * h in
  0 < h -> (x + 3 <= nX)%nat ->
  (forall l, In l dif -> pure ns origin l) -> (forall a, In a adv -> pure ns origin (fst a)) ->
  (forall j k, oSurf o j k = x) ->
  (forall l i, oD o l i = oD o l 0%nat) -> (forall i, oT o i = oT o 0%nat) -> 0 < oT o 0%nat ->
  (forall l j k, oC o l j k x = 0) -> (forall l j k, oC o l j k (nX - 1)%nat = 0) ->
  mean nY nZ (fun j k => Rsum (seq (x + 1) (nX - x - 2)) (fun xi => (grid (S xi) - grid xi) *
    (Rsum dif (fun l => amount origin l s * diffAt3 grid nX nY nZ sy sz (oD o l) (oC o l) j k xi) +
     Rsum adv (fun a => amount origin (fst a) s * advAt3 grid nX nY nZ (grid (x + 1)%nat - grid 1%nat) (snd a) (oD o (fst a)) (oT o) (oC o (fst a)) j k xi)))) =
  - (mean nY nZ (fun j k => leftFlux origin grid dif adv j k o s) + mean nY nZ (fun j k => rightFlux origin grid nX dif j k o s)).
Proof.
  intros grid Hh Hn Hd Ha HS HD HT HT0 C0 C1.
  assert (Hw : forall i, grid (S i) - grid i = h) by (intros i; unfold grid; rewrite S_INR; ring).
  assert (Hr : forall i, hxRight grid nX i = h).
  { intros i. unfold hxRight, grid. rewrite !plus_INR. cbn [INR]. destruct (i <? nX)%nat; lra. }
  assert (Hlf : forall i, (1 <= i)%nat -> hxLeft grid i = h).
  { intros i Hi. unfold hxLeft, grid. destruct (Nat.leb_spec 1 i); [|lia]. rewrite plus_INR, minus_INR by lia. cbn [INR]. lra. }
  set (g' := g0 + INR x * h). set (grid' := fun i => g' + INR i * h).
  assert (EG : forall i, grid' i = grid (x + i)%nat) by (intros i; unfold grid', g', grid; rewrite plus_INR; ring).
  set (o' := fun j k => RetentionModel.Out (odt o) (fun l i => oC o l j k (x + i)%nat) (fun l i => oD o l (x + i)%nat) (fun i => oT o (x + i)%nat)).
  set (nX' := (nX - x)%nat).
  assert (Hr' : forall i, hxRight grid' nX' i = h).
  { intros i. unfold hxRight, grid'. rewrite !plus_INR. cbn [INR]. destruct (i <? nX')%nat; lra. }
  assert (Hl' : forall i, (1 <= i)%nat -> hxLeft grid' i = h).
  { intros i Hi. unfold hxLeft, grid'. destruct (Nat.leb_spec 1 i); [|lia]. rewrite plus_INR, minus_INR by lia. cbn [INR]. lra. }
  (* a column *)
  assert (COL : forall j k, Rsum (seq 1 (nX' - 2)) (fun i => (grid' (S i) - grid' i) *
      (Rsum dif (fun l => amount origin l s * diffAt grid' nX' (RetentionModel.oD (o' j k) l) (fun _ => 1) (RetentionModel.oC (o' j k) l) i) +
       Rsum adv (fun a => amount origin (fst a) s * advAt grid' nX' 0 (snd a) (RetentionModel.oD (o' j k) (fst a)) (RetentionModel.oT (o' j k)) (fun _ => 1) (RetentionModel.oC (o' j k) (fst a)) i))) =
      - (leftFlux origin grid dif adv j k o s + rightFlux origin grid nX dif j k o s)).
  { intros j k. pose proof (Properties_Retention.c68_rate ns origin g' h nX' dif adv 0 (o' j k) s) as R. cbv zeta in R. fold grid' in R.
    change (Properties_Retention.amount) with amount in R. change (Properties_Retention.pure) with pure in R.
    rewrite (R Hh ltac:(unfold nX'; lia) ltac:(lra) Hd Ha) with (p := RetentionModel.Proc 0 nX') (q := RetentionModel.Proc 0 nX'); clear R.
    - assert (G' : forall i, grid' i < grid' (S i)) by (intros i; unfold grid'; rewrite S_INR; lra).
      rewrite (Properties_Retention.c68_surface ns origin grid' nX' dif adv 0 Hd Ha); [|exact G'|unfold nX'; lia|rewrite !EG; replace (x + 2)%nat with (S (x + 1)) by lia; rewrite Hw; lra| |].
      + rewrite (Properties_Retention.c68_bulk ns origin grid' nX' dif Hd); [|exact G'|unfold nX'; lia|].
        * unfold Properties_Retention.leftFlux, Properties_Retention.rightFlux, leftFlux, rightFlux, o', nX'. cbn [RetentionModel.oC RetentionModel.oD RetentionModel.oT]. rewrite (HS j k).
          change (Properties_Retention.amount) with amount. rewrite !EG, Rminus_0_r.
          replace (x + 0)%nat with x by lia. replace (x + (nX - x - 1))%nat with (nX - 1)%nat by lia. replace (x + (nX - x - 3))%nat with (nX - 3)%nat by lia.
          replace (x + (nX - x))%nat with nX by lia. replace (x + (nX - x - 2))%nat with (nX - 2)%nat by lia. reflexivity.
        * apply RetentionProofs.owns_In. unfold RetentionModel.owned. cbn [RetentionModel.xs RetentionModel.xm]. apply in_seq. unfold nX'. lia.
      + apply RetentionProofs.owns_In. unfold RetentionModel.owned. cbn [RetentionModel.xs RetentionModel.xm]. apply in_seq. unfold nX'. lia.
      + cbn [o' RetentionModel.oT]. rewrite HT. exact HT0.
    - intros l i. cbn [o' RetentionModel.oD]. rewrite (HD l (x + i)%nat), (HD l (x + 0)%nat). reflexivity.
    - intros i. cbn [o' RetentionModel.oT]. rewrite (HT (x + i)%nat), (HT (x + 0)%nat). reflexivity.
    - cbn [o' RetentionModel.oT]. rewrite HT. exact HT0.
    - intros l. cbn [o' RetentionModel.oC]. rewrite Nat.add_0_r. apply C0.
    - intros l. cbn [o' RetentionModel.oC]. unfold nX'. replace (x + (nX - x - 1))%nat with (nX - 1)%nat by lia. apply C1.
    - apply RetentionProofs.owns_In. unfold RetentionModel.owned. cbn [RetentionModel.xs RetentionModel.xm]. apply in_seq. unfold nX'. lia.
    - apply RetentionProofs.owns_In. unfold RetentionModel.owned. cbn [RetentionModel.xs RetentionModel.xm]. apply in_seq. unfold nX'. lia. }
  (* lateral part *)
  set (lat := fun (c : nat -> nat -> nat -> R) xi j k =>
    sy * (c (before nY j) k xi + c (after nY j) k xi - 2 * c j k xi) + sz * (c j (before nZ k) xi + c j (after nZ k) xi - 2 * c j k xi)).
  rewrite (mean_ext nY nZ _ (fun j k => Rsum (seq (x + 1) (nX - x - 2)) (fun xi => Rsum dif (fun l => h * (amount origin l s * oD o l 0%nat) * lat (oC o l) xi j k)) +
     - (leftFlux origin grid dif adv j k o s + rightFlux origin grid nX dif j k o s))).
  - rewrite mean_plus, mean_sum.
    rewrite (Rsum_zero (seq (x + 1) _)).
    + rewrite Rplus_0_l. rewrite <- mean_plus. rewrite (mean_ext nY nZ _ (fun j k => -1 * (leftFlux origin grid dif adv j k o s + rightFlux origin grid nX dif j k o s))) by (intros; ring).
      rewrite mean_scal. ring.
    + intros xi _. rewrite mean_sum. apply Rsum_zero. intros l _. rewrite mean_scal. unfold lat. rewrite (mean_lateral nY nZ sy sz (fun j k => oC o l j k xi)). ring.
  - intros j k _ _. rewrite <- COL. replace (nX' - 2)%nat with (nX - x - 2)%nat by (unfold nX'; lia).
    assert (SH : forall n (F : nat -> R), Rsum (seq (x + 1) n) F = Rsum (seq 1 n) (fun i => F (x + i)%nat)).
    { intros n F. replace (seq (x + 1) n) with (map (fun i => (x + i)%nat) (seq 1 n)); [apply Rsum_map|]. generalize 1%nat. induction n as [|n IH]; intros a; cbn [seq map]; [reflexivity|]. rewrite IH. f_equal. f_equal. lia. }
    rewrite !SH, <- Rsum_plus. apply Rsum_ext. intros i Hi. apply in_seq in Hi. rewrite Hw. rewrite !EG. replace (x + S i)%nat with (S (x + i)) by lia. rewrite Hw.
    rewrite !Rmult_plus_distr_l, <- !Rsum_scal, <- Rplus_assoc, <- Rsum_plus. f_equal; apply Rsum_ext; intros l _.
    + unfold diffAt3, diffAt, diff3, diff1, lat, around3, around. cbn [hl hr StencilModel.sy StencilModel.sz Dl Dm Dr]. rewrite Hr, Hr', Hlf, Hl' by lia.
      unfold o'. cbn [RetentionModel.oD RetentionModel.oC]. rewrite (HD l (x + i - 1)%nat), (HD l (x + i)%nat), (HD l (x + i + 1)%nat), (HD l (x + (i - 1))%nat), (HD l (x + (i + 1))%nat).
      replace (x + (i - 1))%nat with (x + i - 1)%nat by lia. replace (x + (i + 1))%nat with (x + i + 1)%nat by lia. field. lra.
    + unfold advAt3, advAt, advS, around3, around. cbn [pos StencilModel.location ah1 ah2 strength aD aT aDr aTr]. rewrite Hr, Hr'. unfold o'. cbn [RetentionModel.oD RetentionModel.oC RetentionModel.oT].
      replace (position grid (x + i) - (grid (x + 1)%nat - grid 1%nat)) with (position grid' i - 0) by (unfold position; rewrite !EG; replace (x + (i + 1))%nat with (x + i + 1)%nat by lia; lra).
      replace (x + (i + 1))%nat with (x + i + 1)%nat by lia. reflexivity.
Qed.
Print Assumptions c76_rate.
Lemma exPure : forall l, pure 2 (fun l => match l with 0%nat => [2; 0] | _ => [0; 1] end)%Z l.
Proof.
  intros [|l]; [exists 0%nat|exists 1%nat]; (split; [lia|split; [discriminate|]]); intros [|[|[|t]]] H; cbn; try reflexivity; congruence.
Qed.
Definition exO (x : nat) (surf : nat -> nat -> nat) (a : nat -> R) : out :=
  Out 2 (fun l j k xi => if (x + 1 <=? xi)%nat && (xi <=? x + 2)%nat then a (l + j + xi)%nat else 0) (fun l _ => INR (S l)) (fun _ => 1000) surf surf.
Example c76_rate_ok (a : nat -> R) : let o := exO 1 (fun _ _ => 1%nat) a in
  (forall j k, oSurf o j k = 1%nat) /\ (forall l i, oD o l i = oD o l 0%nat) /\ (forall i, oT o i = oT o 0%nat) /\ 0 < oT o 0%nat /\
  (forall l j k, oC o l j k 1%nat = 0) /\ (forall l j k, oC o l j k 4%nat = 0) /\ flat o /\
  mean 3 1 (fun j k => leftFlux (fun l => match l with 0%nat => [2; 0] | _ => [0; 1] end)%Z INR [0%nat; 1%nat] [] j k o 0) = 2 * (a 2%nat + a 3%nat + a 4%nat) / 3.
Proof.
  cbv zeta. split; [reflexivity|]. split; [reflexivity|]. split; [reflexivity|]. split; [cbn; lra|]. split; [reflexivity|]. split; [reflexivity|]. split; [exists 1%nat; intros; split; reflexivity|].
  unfold mean, leftFlux, amount. cbn [exO oSurf oD oC oT seq Rsum nth Nat.add Nat.leb andb INR]. lra.
Qed.
Example c76_accumulated_ok (a b : nat -> R) : exists st', 
  surface 2 (fun l => match l with 0%nat => [2; 0] | _ => [0; 1] end)%Z INR 5 2 1 [0%nat; 1%nat] [] false 1 2 0 exProcs 0
    [exO 1 (fun _ _ => 1%nat) a; exO 0 (fun _ _ => 0%nat) b; exO 1 (fun j _ => Nat.min j 1) a] (repeat (RetentionModel.Count (fun _ => 0) (fun _ => 0)) 3) = Some (repeat st' 3) /\
  RetentionModel.total st' 0%nat = 2 * (2 * (2 * a 4%nat + 2 * b 3%nat)).
Proof.
  destruct (monitor_cover (fun o => (oSurf o 2 0 + 1)%nat) (fun i => Nat.eqb i 1 && false)%bool (surfFlux 2 (fun l => match l with 0%nat => [2; 0] | _ => [0; 1] end)%Z INR 5 2 1 [0%nat; 1%nat] [] 2 0) 5 3 1 2 0 exProcs
    (fun o s => 2 * 1 * leftFlux (fun l => match l with 0%nat => [2; 0] | _ => [0; 1] end)%Z INR [0%nat; 1%nat] [] 2 0 o s) exCover ltac:(lia) ltac:(lia)
    [exO 1 (fun _ _ => 1%nat) a; exO 0 (fun _ _ => 0%nat) b; exO 1 (fun j _ => Nat.min j 1) a]) with (t := 0%nat) (st := RetentionModel.Count (fun _ => 0) (fun _ => 0)) as (st' & E & _ & T).
  - intros o [<-|[<-|[<-|[]]]]; cbn; lia.
  - intros o p s Ho Hp Hh. apply surface_flux; [intros i; rewrite S_INR; lra|intros; apply exPure|intros x []|exact Hh| | |];
      destruct Ho as [<-|[<-|[<-|[]]]]; destruct Hp as [<-|[<-|[<-|[]]]]; cbn [exO oSurf oUsed oT ys ym zs zm]; try (cbn; lia); try lra; unfold has in Hh; cbn in Hh; lia.
  - exists st'. split; [exact E|]. rewrite (T 0%nat eq_refl). unfold leftFlux, amount. cbn [exO oSurf oD oC oT odt seq Rsum combine fst snd nth Nat.add Nat.leb andb INR RetentionModel.total Nat.ltb Nat.min]. lra.
Qed.

(** ** Where it is not *)
(** A step in the surface: what leaves through its side is not counted. Two columns, the surface of the second is one point deeper; one helium
    atom per volume at the first point of the first column. *)
Theorem c76_step_refuted : exists o,
  let origin := (fun _ => [1])%Z in let grid := fun i => 0 + INR i * 1 in
  oSurf o 0%nat 0%nat = 0%nat /\ oSurf o 1%nat 0%nat = 1%nat /\ (forall l i, oD o l i = 1) /\
  (forall l j k xi, (xi <= oSurf o j k)%nat \/ (5 <= xi)%nat -> oC o l j k xi = 0) /\
  mean 2 1 (fun j k => Rsum (seq (oSurf o j k + 1) (6 - oSurf o j k - 2)) (fun xi => (grid (S xi) - grid xi) * (1 * diffAt3 grid 6 2 1 1 0 (oD o 0%nat) (oC o 0%nat) j k xi))) = - (3 / 2) /\
  mean 2 1 (fun j k => leftFlux origin grid [0%nat] [] j k o 0) + mean 2 1 (fun j k => rightFlux origin grid 6 [0%nat] j k o 0) = 1 / 2.
Proof.
  exists (Out 1 (fun _ j k xi => if (j =? 0)%nat && (xi =? 1)%nat then 1 else 0) (fun _ _ => 1) (fun _ => 1000) (fun j _ => Nat.min j 1) (fun j _ => Nat.min j 1)). cbv zeta.
  split; [reflexivity|]. split; [reflexivity|]. split; [reflexivity|]. split.
  - intros l j k xi H. cbn [oSurf oC] in *. destruct j as [|j]; [|reflexivity]. cbn [Nat.eqb andb Nat.min] in *. destruct (Nat.eqb_spec xi 1); [lia|reflexivity].
  - split.
    + unfold mean, diffAt3, diff3, around3, before, after, hxLeft, hxRight. cbn [oSurf oD oC seq Rsum Nat.add Nat.sub Nat.min Nat.eqb Nat.leb Nat.ltb andb INR hl hr sy sz Dl Dm Dr]. lra.
    + unfold mean, leftFlux, rightFlux, amount. cbn [oSurf oD oC seq Rsum Nat.add Nat.sub Nat.min Nat.eqb andb INR nth]. lra.
Qed.
Print Assumptions c76_step_refuted.
(** Free sides in y (the default): what leaves through them is not counted. Three columns, those at the sides are empty. *)
Theorem c76_sides_refuted : exists o,
  let origin := (fun _ => [1])%Z in let grid := fun i => 0 + INR i * 1 in
  flat o /\ (forall j k, oSurf o j k = 0%nat) /\ (forall l i, oD o l i = 1) /\
  (forall l j k xi, j = 0%nat \/ j = 2%nat \/ (xi = 0)%nat \/ (5 <= xi)%nat -> oC o l j k xi = 0) /\
  Rsum (seq 1 1) (fun j => Rsum (seq 1 4) (fun xi => (grid (S xi) - grid xi) * (1 * diffAt3 grid 6 3 1 1 0 (oD o 0%nat) (oC o 0%nat) j 0 xi))) / 3 = - 1 /\
  mean 3 1 (fun j k => leftFlux origin grid [0%nat] [] j k o 0) + mean 3 1 (fun j k => rightFlux origin grid 6 [0%nat] j k o 0) = 1 / 3.
Proof.
  exists (Out 1 (fun _ j k xi => if (j =? 1)%nat && (xi =? 1)%nat then 1 else 0) (fun _ _ => 1) (fun _ => 1000) (fun _ _ => 0%nat) (fun _ _ => 0%nat)). cbv zeta.
  split; [exists 0%nat; split; reflexivity|]. split; [reflexivity|]. split; [reflexivity|]. split.
  - intros l j k xi H. cbn [oSurf oC] in *. destruct (Nat.eqb_spec j 1); [|reflexivity]. destruct (Nat.eqb_spec xi 1); [lia|reflexivity].
  - split.
    + unfold diffAt3, diff3, around3, before, after, hxLeft, hxRight. cbn [oSurf oD oC seq Rsum Nat.add Nat.sub Nat.min Nat.eqb Nat.leb Nat.ltb andb INR hl hr sy sz Dl Dm Dr]. lra.
    + unfold mean, leftFlux, rightFlux, amount. cbn [oSurf oD oC seq Rsum Nat.add Nat.sub Nat.min Nat.eqb andb INR nth]. lra.
Qed.
Print Assumptions c76_sides_refuted.
(** Drift towards a surface which is [d] points deeper than the surface of the last column of the process: the reported flux is
    too small by the factor (1 + 2 d)^4. *)
Theorem c76_location_refuted ns origin g0 h nX hy hz adv j k p o s d :
  let grid := fun i => g0 + INR i * h in
  0 < h -> (forall a, In a adv -> pure ns origin (fst a)) -> has p j k (oSurf o j k + 1) -> 0 < oT o (oSurf o j k) ->
  Z.of_nat (oSurf o j k) = (Z.of_nat (oUsed o (ys p + ym p - 1) (zs p + zm p - 1)) + d)%Z ->
  surfFlux ns origin grid nX hy hz [] adv j k p o s = hy * hz * leftFlux origin grid [] adv j k o s / (1 + 2 * IZR d) ^ 4.
Proof.
  intros grid Hh Ha ((P1 & P2) & _) HT HU. unfold surfFlux, location. set (x := oSurf o j k) in *. set (u := oUsed o _ _) in *.
  assert (E : forall v : nat -> R, stored p v (x + 1 - xs p) = v x) by (intros v; unfold stored; f_equal; lia).
  rewrite adv_pure; [|rewrite E; exact HT|exact Ha]. cbn [RetentionModel.diffFluxes fold_left]. rewrite Rplus_0_l. unfold leftFlux. fold x. pose proof kB_pos as HK. cbn [Rsum]. rewrite Rplus_0_l.
  rewrite <- Rsum_scal, <- Rsum_div. apply Rsum_ext. intros l Hi. rewrite !E.
  assert (D : INR x = INR u + IZR d) by (rewrite !INR_IZR_INZ, HU, plus_IZR; reflexivity).
  assert (N : 1 + 2 * IZR d <> 0) by (rewrite <- (mult_IZR 2), <- plus_IZR; apply not_0_IZR; lia).
  unfold advFactor, RetentionProofs.amount, amount, grid. rewrite !plus_INR. cbn [INR]. rewrite D.
  replace ((g0 + (INR u + IZR d + 1) * h + (g0 + (INR u + IZR d + 1 + 1) * h)) / 2 - (g0 + 1 * h) - (g0 + (INR u + 1) * h - (g0 + 1 * h))) with (h / 2 * (1 + 2 * IZR d)) by lra.
  replace ((g0 + (INR u + IZR d + (1 + 1)) * h - (g0 + (INR u + IZR d + 1) * h)) / 2) with (h / 2) by lra.
  field. repeat split; try lra; exact N.
Qed.
Print Assumptions c76_location_refuted.
Example c76_location_ok : let o := exO 0 (fun j _ => (2 - Nat.min j 2)%nat) (fun _ => 1) in
  Z.of_nat (oSurf o 0 0) = (Z.of_nat (oUsed o 2 0) + 2)%Z /\ (1 + 2 * IZR 2) ^ 4 = 625 /\ has (Proc 0 6 0 3 0 1) 0 0 (oSurf o 0 0 + 1).
Proof. cbv zeta. split; [reflexivity|]. split; [lra|]. unfold has. cbn. lia. Qed.
