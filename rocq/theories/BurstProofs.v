(** Bursting: specification by individual compositions, and proofs. *)
From Verif Require Export Sums BurstModel.
Set Implicit Arguments.
Open Scope R_scope.

(** ** Specification. *)
(** The compositions of a cluster; the linearly reconstructed concentration of
    one of them: the moments belong to the grouped axes, in order. *)
Fixpoint comps (rs : list (Z * Z)) : list (list Z) :=
  match rs with [] => [[]] | r :: rs' => flat_map (fun x => map (cons x) (comps rs')) (inter r) end.
Definition dist (r : Z * Z) (x : Z) : R :=
  if (len r =? 1)%Z then 0 else 2 * (IZR x - (IZR (fst r) + IZR (snd r) - 1) / 2) / (IZR (len r) - 1).
Definition grouped (rs : list (Z * Z)) (x : list Z) : list ((Z * Z) * Z) :=
  filter (fun p => negb (len (fst p) =? 1)%Z) (combine rs x).
Definition conc (f : nat -> R) (i : nat) (c : cl) (x : list Z) : R :=
  f i + Rsum (combine (moms c) (grouped (axes c) x)) (fun p => f (fst p) * dist (fst (snd p)) (snd (snd p))).
(** Sum of a quantity over all compositions of all clusters. *)
Definition total (cs : list cl) (q : list Z -> R) (f : nat -> R) : R :=
  Rsum (seq 0 (length cs)) (fun i => Rsum (comps (axes (nth i cs dummy))) (fun x => conc f i (nth i cs dummy) x * q x)).

(** Kinds of clusters. [ng] is the number of gas species. *)
Definition one (n : Z) : Z * Z := (n, n + 1)%Z.
Definition vacancyCluster (ng : nat) (v : Z) (c : cl) : Prop :=
  (0 < v)%Z /\ gasR c = repeat (one 0) ng /\ vacR c = one v /\ intR c = one 0.
Definition interstitialCluster (ng : nat) (c : cl) : Prop :=
  exists i, (0 < i)%Z /\ gasR c = repeat (one 0) ng /\ vacR c = one 0 /\ intR c = one i.
Definition gasCluster (ng : nat) (c : cl) : Prop :=
  exists g a, (g < ng)%nat /\ (0 < a)%Z /\ gasR c = repeat (one 0) g ++ one a :: repeat (one 0) (ng - g - 1) /\
    vacR c = one 0 /\ intR c = one 0.
Definition mixedCluster (ng : nat) (c : cl) : Prop :=
  length (gasR c) = ng /\ Forall (fun r => 0 <= fst r < snd r)%Z (gasR c) /\ (0 < fst (vacR c) < snd (vacR c))%Z /\ intR c = one 0 /\
  Exists (fun r => 0 < fst r)%Z (gasR c).
(** A network in which only mixed clusters are grouped, and every number of
    vacancies of a mixed cluster exists as a single-size vacancy cluster. *)
Definition network (ng : nat) (findV : Z -> option nat) (cs : list cl) : Prop :=
  Forall (fun c => Forall (fun m => length cs <= m)%nat (moms c) /\
    ((exists v, vacancyCluster ng v c) \/ interstitialCluster ng c \/ gasCluster ng c \/
     (mixedCluster ng c /\ forall v, (fst (vacR c) <= v < snd (vacR c))%Z ->
        exists k c', findV v = Some k /\ nth_error cs k = Some c' /\ vacancyCluster ng v c'))) cs.

(** ** Sums over compositions. *)
Lemma inter_In r x : In x (inter r) <-> (fst r <= x < snd r)%Z.
Proof.
  unfold inter, len. rewrite in_map_iff. split.
  - intros (n & <- & Hn). apply in_seq in Hn. lia.
  - intros H. exists (Z.to_nat (x - fst r)). split; [lia|]. apply in_seq. lia.
Qed.
Lemma inter_NoDup r : NoDup (inter r).
Proof.
  unfold inter. apply FinFun.Injective_map_NoDup; [|apply seq_NoDup]. intros a b H. lia.
Qed.
Lemma inter_one n : inter (one n) = [n].
Proof. unfold inter, one, len. cbn [fst snd]. replace (Z.to_nat (n + 1 - n)) with 1%nat by lia. cbn. f_equal. lia. Qed.
Lemma inter_len r : (fst r <= snd r)%Z -> INR (length (inter r)) = IZR (len r).
Proof.
  intros H. unfold inter. rewrite map_length, seq_length, INR_IZR_INZ. f_equal. unfold len. lia.
Qed.
Lemma comps_length rs x : In x (comps rs) -> length x = length rs.
Proof.
  revert x. induction rs as [|r rs IH]; intros x; cbn [comps].
  - intros [<-|[]]. reflexivity.
  - intros H. apply in_flat_map in H as (y & _ & H). apply in_map_iff in H as (z & <- & Hz). cbn. rewrite (IH _ Hz). reflexivity.
Qed.
Lemma comps_nth rs x k r : In x (comps rs) -> nth_error rs k = Some r -> In (nth k x 0%Z) (inter r).
Proof.
  revert x k. induction rs as [|r' rs IH]; intros x k; cbn [comps]; [destruct k; discriminate|].
  intros H. apply in_flat_map in H as (y & Hy & H). apply in_map_iff in H as (z & <- & Hz).
  destruct k as [|k]; cbn; [intros [= <-]; exact Hy|]. apply IH. exact Hz.
Qed.
Definition vol (rs : list (Z * Z)) : Z := fold_right (fun r v => (len r * v)%Z) 1%Z rs.
Lemma comps_count rs : Forall (fun r => fst r <= snd r)%Z rs -> INR (length (comps rs)) = IZR (vol rs).
Proof.
  induction 1 as [|r rs Hr HF IH]; [reflexivity|]. cbn [comps vol fold_right]. rewrite mult_IZR. fold (vol rs). rewrite <- IH, <- inter_len by exact Hr.
  rewrite <- (Rmult_1_r (INR (length (comps rs)))), <- Rsum_const, <- (Rmult_1_r (INR (length (flat_map _ _)))), <- Rsum_const.
  rewrite Rsum_flat_map. rewrite (Rsum_ext _ _ (fun _ => Rsum (comps rs) (fun _ => 1))); [rewrite !Rsum_const; ring|].
  intros x _. rewrite Rsum_map. reflexivity.
Qed.
(** A quantity which depends on one axis. *)
Lemma comps_axis rs k r (q : Z -> R) : Forall (fun r => fst r < snd r)%Z rs -> nth_error rs k = Some r ->
  Rsum (comps rs) (fun x => q (nth k x 0%Z)) = IZR (vol rs) / IZR (len r) * Rsum (inter r) q.
Proof.
  revert k. induction rs as [|r' rs IH]; intros k HF Hk; [destruct k; discriminate|].
  inversion HF as [|? ? H1 H2]; subst. cbn [comps vol fold_right]. fold (vol rs). rewrite Rsum_flat_map.
  assert (P : forall r : Z * Z, (fst r < snd r)%Z -> IZR (len r) <> 0) by (intros; apply not_0_IZR; unfold len; lia).
  destruct k as [|k].
  - injection Hk as ->. rewrite (Rsum_ext _ _ (fun x => IZR (vol rs) * q x)).
    + rewrite Rsum_scal, mult_IZR. field. apply P. exact H1.
    + intros x _. rewrite Rsum_map. cbn [nth]. rewrite Rsum_const, comps_count; [reflexivity|].
      eapply Forall_impl; [|exact H2]. cbn. lia.
  - cbn [nth_error] in Hk. rewrite (Rsum_ext _ _ (fun _ => IZR (vol rs) / IZR (len r) * Rsum (inter r) q)).
    + rewrite Rsum_const, inter_len by lia. rewrite mult_IZR. unfold Rdiv. ring.
    + intros x _. rewrite Rsum_map. cbn [nth]. apply IH; assumption.
Qed.

(** ** One step. *)
Section STEP.
Variable factor : R.
Variable findV : Z -> option nat.
Variable cs : list cl.
Variable ng : nat.
Hypothesis NET : network ng findV cs.
Notation n := (length cs).

(** Zero moments: every composition of a group has the stored concentration. *)
Definition flat (f : nat -> R) : Prop := forall c m, In c cs -> In m (moms c) -> f m = 0.
Lemma conc_flat f i c x : flat f -> In c cs -> conc f i c x = f i.
Proof using.
  intros HF Hc. unfold conc. rewrite Rsum_zero; [ring|]. intros [m p] Hin. cbn. rewrite (HF c m); [ring|exact Hc|].
  apply in_combine_l in Hin. exact Hin.
Qed.
Definition weight (q : list Z -> R) (i : nat) : R := Rsum (comps (axes (nth i cs dummy))) q.
Lemma total_flat q f : flat f -> total cs q f = Rsum (seq 0 n) (fun i => f i * weight q i).
Proof using.
  intros HF. unfold total. apply Rsum_ext. intros i Hi. apply in_seq in Hi. unfold weight. rewrite <- Rsum_scal. apply Rsum_ext.
  intros x _. rewrite conc_flat; auto. apply nth_In. lia.
Qed.

Lemma upd_same f k x : upd f k x k = x.
Proof. unfold upd. rewrite Nat.eqb_refl. reflexivity. Qed.
Lemma upd_other f k x j : j <> k -> upd f k x j = f j.
Proof. intros H. unfold upd. apply Nat.eqb_neq in H. rewrite H. reflexivity. Qed.

Lemma sum_upd f k x w : (k < n)%nat -> Rsum (seq 0 n) (fun i => upd f k x i * w i) = Rsum (seq 0 n) (fun i => f i * w i) + (x - f k) * w k.
Proof using.
  intros Hk. rewrite (Rsum_ext _ _ (fun i => f i * w i + (if Nat.eqb i k then (x - f k) * w k else 0))).
  - rewrite Rsum_plus. f_equal. rewrite (@Rsum_single _ _ _ k); [rewrite Nat.eqb_refl; reflexivity|apply seq_NoDup|apply in_seq; lia|].
    intros y _ Hy. apply Nat.eqb_neq in Hy. rewrite Hy. reflexivity.
  - intros i _. unfold upd. destruct (Nat.eqb_spec i k) as [->|]; ring.
Qed.
Lemma sum_upd_out f k x w : (n <= k)%nat -> Rsum (seq 0 n) (fun i => upd f k x i * w i) = Rsum (seq 0 n) (fun i => f i * w i).
Proof using.
  intros Hk. apply Rsum_ext. intros i Hi. apply in_seq in Hi. rewrite upd_other by lia. reflexivity.
Qed.

Lemma net_at i c : nth_error cs i = Some c -> Forall (fun m => n <= m)%nat (moms c) /\
    ((exists v, vacancyCluster ng v c) \/ interstitialCluster ng c \/ gasCluster ng c \/
     (mixedCluster ng c /\ forall v, (fst (vacR c) <= v < snd (vacR c))%Z ->
        exists k c', findV v = Some k /\ nth_error cs k = Some c' /\ vacancyCluster ng v c')).
Proof.
  intros H. unfold network in NET. rewrite Forall_forall in NET. apply NET. eapply nth_error_In; eauto.
Qed.
Lemma moment_out c m : In c cs -> In m (moms c) -> (n <= m)%nat.
Proof.
  intros Hc Hm. unfold network in NET. rewrite Forall_forall in NET. destruct (NET c Hc) as [H _]. rewrite Forall_forall in H. auto.
Qed.

(** The transfer loop. *)
Lemma transferAll_spec c i scale vs f :
  nth_error cs i = Some c -> mixedCluster ng c ->
  (forall v, In v vs -> exists k c', findV v = Some k /\ nth_error cs k = Some c' /\ vacancyCluster ng v c') ->
  exists f', transferAll findV cs i scale vs f = Some f' /\ f' i = f i /\
    (forall j c', nth_error cs j = Some c' -> (forall v, ~ vacancyCluster ng v c') -> f' j = f j) /\
    (forall j, (n <= j)%nat -> f' j = f j) /\
    (forall w, Rsum (seq 0 n) (fun j => f' j * w j) =
      Rsum (seq 0 n) (fun j => f j * w j) + f i * scale * Rsum vs (fun v => match findV v with Some k => w k | None => 0 end)).
Proof.
  intros Hi HM. revert f. induction vs as [|v vs IH]; intros f HV.
  - exists f. cbn. repeat split; auto. intros. ring.
  - destruct (HV v (or_introl eq_refl)) as (k & c' & Ek & Nk & Vk).
    cbn [transferAll]. unfold transfer at 1. rewrite Ek.
    assert (Hik : i <> k).
    { intros ->. rewrite Nk in Hi. injection Hi as ->. destruct Vk as (_ & Eg & _). destruct HM as (_ & _ & _ & _ & HE).
      rewrite Eg in HE. apply Exists_exists in HE as (r & Hr & Hlt). apply repeat_spec in Hr. subst r. cbn in Hlt. lia. }
    destruct (IH (upd f k (f k + f i * scale / IZR (len (vacR (nth k cs dummy)))))) as (f' & E & Hf & Ho & Hm & Hw).
    { intros u Hu. apply HV. right. exact Hu. }
    exists f'. rewrite upd_other in Hf, Hw by exact Hik.
    assert (Hkn : (k < n)%nat) by (apply nth_error_Some; congruence).
    split; [exact E|]. split; [exact Hf|]. split; [|split].
    + intros j d Hj Hd. rewrite (Ho j d Hj Hd). apply upd_other. intros ->. rewrite Nk in Hj. injection Hj as ->. apply (Hd v). exact Vk.
    + intros j Hj. rewrite (Hm j Hj). apply upd_other. lia.
    + intros w. rewrite (Hw w). rewrite sum_upd by exact Hkn. cbn [Rsum]. rewrite Ek.
      rewrite (nth_error_nth _ _ _ Nk). destruct Vk as (_ & _ & -> & _). unfold one, len. cbn [fst snd].
      replace (v + 1 - v)%Z with 1%Z by lia. field.
Qed.

(** *** Axis tests. *)
Lemma comps_one l : comps (map one l) = [l].
Proof using. induction l as [|x l IH]; [reflexivity|]. cbn [map comps]. rewrite inter_one, IH. reflexivity. Qed.
Lemma vol_one l : vol (map one l) = 1%Z.
Proof using. induction l as [|x l IH]; [reflexivity|]. cbn [map vol fold_right]. fold (vol (map one l)). rewrite IH. unfold len, one. cbn [fst snd]. lia. Qed.
Lemma map_one_repeat m : repeat (one 0) m = map one (repeat 0%Z m).
Proof using. induction m; cbn; congruence. Qed.
Lemma forallb_repeat m : forallb (fun y => (y =? 0)%Z) (repeat 0%Z m) = true.
Proof using. induction m; cbn; auto. Qed.
Lemma onAxis_pure k g a m : a <> 0%Z -> onAxis k (repeat 0%Z g ++ a :: repeat 0%Z m) = Nat.eqb k g.
Proof using.
  intros Ha. revert k. induction g as [|g IH]; intros k; cbn [repeat app onAxis].
  - destruct k as [|k].
    + cbn -[Z.eqb repeat forallb]. rewrite forallb_repeat. destruct (Z.eqb_spec a 0); [contradiction|reflexivity].
    + cbn -[Z.eqb repeat]. destruct (Z.eqb_spec a 0); [contradiction|reflexivity].
  - destruct k as [|k].
    + cbn -[Z.eqb repeat app forallb]. rewrite forallb_app. cbn -[Z.eqb repeat]. destruct (Z.eqb_spec a 0); [contradiction|]. rewrite andb_false_r. reflexivity.
    + cbn -[Z.eqb repeat app]. apply IH.
Qed.
Lemma onAxis_others k o : onAxis k o = true -> forall j, j <> k -> nth j o 0%Z = 0%Z.
Proof using.
  revert k. induction o as [|x o IH]; intros k H j Hj; [destruct j; reflexivity|].
  cbn [onAxis] in H. destruct k as [|k]; apply andb_true_iff in H as [H1 H2].
  - destruct j as [|j]; [contradiction|]. cbn. rewrite forallb_forall in H2.
    destruct (lt_dec j (length o)); [|apply nth_overflow; lia]. apply Z.eqb_eq. apply H2. apply nth_In. assumption.
  - apply Z.eqb_eq in H1. destruct j as [|j]; cbn; [exact H1|]. apply (IH k); auto.
Qed.
Lemma find_pure g m : find (fun k => Nat.eqb k g) (seq 0 m) = if (g <? m)%nat then Some g else None.
Proof using.
  assert (G : forall s, (s <= g)%nat -> find (fun k => Nat.eqb k g) (seq s m) = if (g <? s + m)%nat then Some g else None).
  { induction m as [|m IH]; intros s Hs; cbn [seq find].
    - destruct (Nat.ltb_spec g (s + 0)); [lia|reflexivity].
    - destruct (Nat.eqb_spec s g) as [->|].
      + destruct (Nat.ltb_spec g (g + S m)); [reflexivity|lia].
      + rewrite IH by lia. replace (S s + m)%nat with (s + S m)%nat by lia. reflexivity. }
  apply (G 0%nat). lia.
Qed.
Lemma find_ext_b (A : Type) (p q : A -> bool) l : (forall x, p x = q x) -> find p l = find q l.
Proof using. intros H. induction l as [|x l IH]; cbn; [reflexivity|]. rewrite H, IH. reflexivity. Qed.
Lemma simplex_one c : isSimplex c = true -> axes c = map one (origin c).
Proof using.
  unfold isSimplex, origin. induction (axes c) as [|[a b] l IH]; cbn; [reflexivity|]. intros H. apply andb_true_iff in H as [H1 H2].
  apply Z.eqb_eq in H1. unfold len in H1. cbn in H1. rewrite <- IH by exact H2. unfold one. do 2 f_equal. lia.
Qed.
Lemma isSimplex_one c l : axes c = map one l -> isSimplex c = true.
Proof using.
  unfold isSimplex. intros ->. induction l as [|x l IH]; cbn; [reflexivity|]. rewrite IH. unfold len, one. cbn.
  replace (x + 1 - x)%Z with 1%Z by lia. reflexivity.
Qed.
Lemma origin_one c l : axes c = map one l -> origin c = l.
Proof using. unfold origin. intros ->. rewrite map_map. cbn. apply map_id. Qed.

(** *** Accumulating into the counters. *)
Lemma fold_acc (F : (nat -> R) -> nat -> nat -> R) (e : nat -> R) m b k :
  (forall b g k, F b g k = if Nat.eqb k g then b k + e g else b k) ->
  fold_left F (seq 0 m) b k = b k + (if (k <? m)%nat then e k else 0).
Proof using.
  intros HF. induction m as [|m IH]; [cbn; ring|].
  rewrite seq_S, fold_left_app. cbn [fold_left plus]. rewrite HF, IH.
  destruct (Nat.eqb_spec k m) as [->|].
  - destruct (Nat.ltb_spec m m); [lia|]. destruct (Nat.ltb_spec m (S m)); [|lia]. ring.
  - destruct (Nat.ltb_spec k m), (Nat.ltb_spec k (S m)); try lia; ring.
Qed.
Lemma fold_inner (t : Z -> R) g l b k :
  fold_left (fun b' j => upd b' g (b' g + t j)) l b k = if Nat.eqb k g then b k + Rsum l t else b k.
Proof using.
  revert b. induction l as [|x l IH]; intros b; cbn [fold_left Rsum].
  - destruct (Nat.eqb k g); ring.
  - rewrite IH. unfold upd. destruct (Nat.eqb_spec k g) as [E|E]; [rewrite E; ring|reflexivity].
Qed.
Lemma fold_clear l (f : nat -> R) j : fold_left (fun h m => clear m h) l f j = if existsb (Nat.eqb j) l then 0 else f j.
Proof using.
  revert f. induction l as [|m l IH]; intros f; cbn [fold_left existsb]; [reflexivity|]. rewrite IH. unfold clear, upd.
  destruct (existsb (Nat.eqb j) l); rewrite ?orb_true_r, ?orb_false_r; reflexivity.
Qed.

(** *** Weights of the kinds. *)
Definition VI (h : Z -> Z -> R) (x : list Z) : R := h (nth ng x 0%Z) (nth (S ng) x 0%Z).
Definition amount (g : nat) (x : list Z) : R := IZR (nth g x 0%Z).
Definition shape (c : cl) (g : nat) (a : Z) (m : nat) : Prop := axes c = map one (repeat 0%Z g ++ a :: repeat 0%Z m).
Lemma vac_shape v c : vacancyCluster ng v c -> shape c ng v 1.
Proof using. intros (_ & Eg & Ev & Ei). unfold shape, axes. rewrite Eg, Ev, Ei, map_one_repeat, map_app. reflexivity. Qed.
Lemma int_shape c : interstitialCluster ng c -> exists i, (0 < i)%Z /\ shape c (S ng) i 0.
Proof using.
  intros (i & Hi & Eg & Ev & Ei). exists i. split; [exact Hi|]. unfold shape, axes. rewrite Eg, Ev, Ei, map_one_repeat, map_app.
  replace (S ng) with (ng + 1)%nat by lia. rewrite repeat_app, map_app, <- app_assoc. reflexivity.
Qed.
Lemma gas_shape c : gasCluster ng c -> exists g a, (g < ng)%nat /\ (0 < a)%Z /\ shape c g a (ng - g + 1).
Proof using.
  intros (g & a & Hg & Ha & Eg & Ev & Ei). exists g, a. do 2 (split; [assumption|]). unfold shape, axes.
  rewrite Eg, Ev, Ei, !map_one_repeat, map_app. cbn [map]. rewrite <- app_assoc. cbn [app]. do 2 f_equal.
  replace (ng - g + 1)%nat with ((ng - g - 1) + 2)%nat by lia. rewrite repeat_app, map_app. reflexivity.
Qed.
Lemma weight_shape q i c g a m : nth_error cs i = Some c -> shape c g a m -> weight q i = q (repeat 0%Z g ++ a :: repeat 0%Z m).
Proof using. intros Hi HS. unfold weight. rewrite (nth_error_nth _ _ _ Hi), HS, comps_one. cbn. ring. Qed.
Lemma nth_shape j g a m : nth j (repeat 0%Z g ++ a :: repeat 0%Z m) 0%Z = if Nat.eqb j g then a else 0%Z.
Proof using.
  destruct (Nat.eqb_spec j g) as [->|Hj].
  - rewrite app_nth2; rewrite repeat_length; [|lia]. rewrite Nat.sub_diag. reflexivity.
  - destruct (lt_dec j g); [rewrite app_nth1 by (rewrite repeat_length; assumption); apply nth_repeat|].
    rewrite app_nth2; rewrite repeat_length; [|lia]. destruct (j - g)%nat as [|k] eqn:E; [lia|]. cbn. apply nth_repeat.
Qed.
Lemma mixed_axes c : mixedCluster ng c -> Forall (fun r => fst r < snd r)%Z (axes c) /\
  nth_error (axes c) ng = Some (vacR c) /\ nth_error (axes c) (S ng) = Some (one 0) /\
  (forall g, (g < ng)%nat -> nth_error (axes c) g = Some (nth g (gasR c) (0, 1)%Z)).
Proof using.
  intros (Hl & Hg & Hv & Hi & _). unfold axes. rewrite Hi. repeat split.
  - apply Forall_app. split; [eapply Forall_impl; [|exact Hg]; cbn; lia|]. repeat constructor; cbn; lia.
  - rewrite nth_error_app2 by lia. rewrite Hl, Nat.sub_diag. reflexivity.
  - rewrite nth_error_app2 by lia. rewrite Hl. replace (S ng - ng)%nat with 1%nat by lia. reflexivity.
  - intros g H. rewrite nth_error_app1 by lia. apply nth_error_nth'. lia.
Qed.
Lemma weight_mixed_VI h i c : nth_error cs i = Some c -> mixedCluster ng c ->
  weight (VI h) i = IZR (volume c) / IZR (len (vacR c)) * Rsum (inter (vacR c)) (fun v => h v 0%Z).
Proof using.
  intros Hi HM. destruct (mixed_axes HM) as (HF & HV & HI & _). unfold weight. rewrite (nth_error_nth _ _ _ Hi).
  rewrite (Rsum_ext _ _ (fun x => h (nth ng x 0%Z) 0%Z)); [apply (comps_axis _ (fun v => h v 0%Z) HF HV)|].
  intros x Hx. unfold VI. f_equal. pose proof (comps_nth _ _ _ Hx HI) as H. rewrite inter_one in H. destruct H as [H|[]]. congruence.
Qed.
Lemma weight_mixed_gas g i c : nth_error cs i = Some c -> mixedCluster ng c -> (g < ng)%nat ->
  weight (amount g) i = IZR (volume c) / IZR (len (nth g (gasR c) (0, 1)%Z)) * Rsum (inter (nth g (gasR c) (0, 1)%Z)) IZR.
Proof using.
  intros Hi HM Hg. destruct (mixed_axes HM) as (HF & _ & _ & HG). unfold weight. rewrite (nth_error_nth _ _ _ Hi).
  unfold amount. rewrite (comps_axis _ IZR HF (HG g Hg)). reflexivity.
Qed.

Definition gasHolding (c : cl) : Prop := gasCluster ng c \/ mixedCluster ng c.
Definition stepOk (i : nat) (s s' : st) : Prop :=
  flat (sol s') /\
  (forall h, h 0%Z 0%Z = 0 -> Rsum (seq 0 n) (fun j => sol s' j * weight (VI h) j) = Rsum (seq 0 n) (fun j => sol s j * weight (VI h) j)) /\
  (forall g, (g < ng)%nat ->
     burst s' g + factor * Rsum (seq 0 n) (fun j => sol s' j * weight (amount g) j) =
     burst s g + factor * Rsum (seq 0 n) (fun j => sol s j * weight (amount g) j)) /\
  (forall j c, nth_error cs j = Some c -> gasHolding c -> sol s' j = if Nat.eqb j i then 0 else sol s j) /\
  (forall j c, nth_error cs j = Some c -> interstitialCluster ng c -> sol s' j = sol s j).

Lemma not_vac_int c v : interstitialCluster ng c -> ~ vacancyCluster ng v c.
Proof using. intros (i & Hi & _ & Ev & _) (Hv & _ & Ev' & _). rewrite Ev in Ev'. unfold one in Ev'. injection Ev'. lia. Qed.
Lemma not_vac_gas c v : gasHolding c -> ~ vacancyCluster ng v c.
Proof using.
  intros [(g & a & Hg & Ha & Eg & Ev & _)|(_ & _ & _ & _ & HE)] (Hv & Eg' & Ev' & _).
  - rewrite Ev in Ev'. unfold one in Ev'. injection Ev'. lia.
  - rewrite Eg' in HE. apply Exists_exists in HE as (r & Hr & Hlt). apply repeat_spec in Hr. subst r. cbn in Hlt. lia.
Qed.
Lemma not_int_gas c : gasHolding c -> ~ interstitialCluster ng c.
Proof using.
  intros HG (i & Hi & Eg' & Ev' & Ei'). destruct HG as [(g & a & Hg & Ha & Eg & Ev & Ei)|(_ & _ & _ & Ei & _)];
    rewrite Ei in Ei'; unfold one in Ei'; injection Ei'; lia.
Qed.

(** The mixed case, common to both branches. *)
Lemma mixed_step i c s b (ms : list nat) :
  flat (sol s) -> nth_error cs i = Some c -> mixedCluster ng c -> Forall (fun m => n <= m)%nat ms ->
  (forall v, (fst (vacR c) <= v < snd (vacR c))%Z -> exists k c', findV v = Some k /\ nth_error cs k = Some c' /\ vacancyCluster ng v c') ->
  (forall g, (g < ng)%nat -> b g = burst s g + factor * (sol s i * weight (amount g) i)) ->
  exists f, transferAll findV cs i (IZR (volume c) / IZR (len (vacR c))) (inter (vacR c)) (sol s) = Some f /\
    stepOk i s (St (fold_left (fun h m => clear m h) ms (clear i f)) b).
Proof.
  intros HF Hi HM Hms HV Hb.
  destruct (@transferAll_spec c i (IZR (volume c) / IZR (len (vacR c))) (inter (vacR c)) (sol s) Hi HM) as (f & E & Hfi & Ho & Hm & Hw).
  { intros v Hv. apply HV. apply inter_In. exact Hv. }
  exists f. split; [exact E|].
  assert (Hin : (i < n)%nat) by (apply nth_error_Some; congruence).
  set (f' := fold_left (fun h m => clear m h) ms (clear i f)).
  assert (Hlow : forall j, (j < n)%nat -> f' j = clear i f j).
  { intros j Hj. unfold f'. rewrite fold_clear. destruct (existsb (Nat.eqb j) ms) eqn:Ex; [|reflexivity].
    apply existsb_exists in Ex as (m & Hm' & Em). apply Nat.eqb_eq in Em. subst m. rewrite Forall_forall in Hms. apply Hms in Hm'. lia. }
  assert (Hsum : forall w, Rsum (seq 0 n) (fun j => f' j * w j) =
     Rsum (seq 0 n) (fun j => sol s j * w j) - sol s i * w i +
     sol s i * (IZR (volume c) / IZR (len (vacR c))) * Rsum (inter (vacR c)) (fun v => match findV v with Some k => w k | None => 0 end)).
  { intros w. rewrite (Rsum_ext _ _ (fun j => clear i f j * w j)).
    - unfold clear. rewrite sum_upd by exact Hin. rewrite Hw, Hfi. ring.
    - intros j Hj. apply in_seq in Hj. rewrite Hlow by lia. reflexivity. }
  unfold stepOk. cbn [sol burst]. split; [|split; [|split; [|split]]].
  - intros c' m Hc' Hm'. unfold f'. rewrite fold_clear. destruct (existsb (Nat.eqb m) ms); [reflexivity|].
    unfold clear. rewrite upd_other by (pose proof (moment_out c' m Hc' Hm'); lia).
    rewrite Hm by (apply (moment_out c' m Hc' Hm')). apply (HF c' m Hc' Hm').
  - intros h H0. rewrite Hsum. rewrite (@weight_mixed_VI h i c Hi HM).
    rewrite (Rsum_ext (inter (vacR c)) (fun v => match findV v with Some k => weight (VI h) k | None => 0 end) (fun v => h v 0%Z)); [ring|].
    intros v Hv. apply inter_In in Hv. destruct (HV v Hv) as (k & c' & -> & Nk & Vk).
    rewrite (@weight_shape _ k c' ng v 1 Nk (vac_shape Vk)). unfold VI. rewrite !nth_shape, Nat.eqb_refl.
    destruct (Nat.eqb_spec (S ng) ng); [lia|reflexivity].
  - intros g Hg. rewrite Hsum, Hb by exact Hg.
    rewrite (Rsum_ext (inter (vacR c)) (fun v => match findV v with Some k => weight (amount g) k | None => 0 end) (fun _ => 0)); [rewrite Rsum_0; ring|].
    intros v Hv. apply inter_In in Hv. destruct (HV v Hv) as (k & c' & -> & Nk & Vk).
    rewrite (@weight_shape _ k c' ng v 1 Nk (vac_shape Vk)). unfold amount. rewrite nth_shape.
    destruct (Nat.eqb_spec g ng); [lia|reflexivity].
  - intros j d Hj Hd. assert (j < n)%nat by (apply nth_error_Some; congruence). rewrite Hlow by assumption. unfold clear, upd.
    destruct (Nat.eqb j i); [reflexivity|]. apply (Ho j d Hj). intros v. apply not_vac_gas. exact Hd.
  - intros j d Hj Hd. assert (j < n)%nat by (apply nth_error_Some; congruence). rewrite Hlow by assumption. unfold clear, upd.
    destruct (Nat.eqb_spec j i) as [->|].
    + rewrite Hi in Hj. injection Hj as ->. exfalso. apply (not_int_gas (or_intror HM)). exact Hd.
    + apply (Ho j d Hj). intros v. apply not_vac_int. exact Hd.
Qed.

Lemma burstStep_ok i c s : flat (sol s) -> nth_error cs i = Some c ->
  exists s', burstStep factor findV cs i c s = Some s' /\ stepOk i s s'.
Proof.
  intros HF Hi. assert (Hin : (i < n)%nat) by (apply nth_error_Some; congruence).
  destruct (@net_at i c Hi) as [Hms [[v HV]|[HI|[HG|[HM HT]]]]].
  - (* vacancy *)
    exists s. pose proof (vac_shape HV) as HS. destruct HV as (Hv & Eg & Ev & Ei).
    unfold burstStep. rewrite (isSimplex_one _ _ HS), (origin_one _ _ HS).
    assert (El : length (gasR c) = ng) by (rewrite Eg; apply repeat_length). rewrite El.
    rewrite (find_ext_b _ (fun k => Nat.eqb k ng)) by (intros; apply onAxis_pure; lia).
    rewrite find_pure. rewrite Nat.ltb_irrefl. rewrite onAxis_pure by lia. rewrite Nat.eqb_refl. cbn [orb]. split; [reflexivity|].
    assert (HV : vacancyCluster ng v c) by (repeat split; assumption).
    split; [exact HF|]. do 2 (split; [reflexivity|]). split; [|reflexivity].
    intros j d Hj Hd. destruct (Nat.eqb_spec j i) as [->|]; [|reflexivity]. rewrite Hi in Hj. injection Hj as <-.
    exfalso. apply (not_vac_gas Hd HV).
  - (* interstitial *)
    exists s. destruct (int_shape HI) as (a & Ha & HS).
    unfold burstStep. rewrite (isSimplex_one _ _ HS), (origin_one _ _ HS).
    assert (El : length (gasR c) = ng) by (destruct HI as (? & _ & -> & _); apply repeat_length). rewrite El.
    rewrite (find_ext_b _ (fun k => Nat.eqb k (S ng))) by (intros; apply onAxis_pure; lia).
    rewrite find_pure. replace (S ng <? ng)%nat with false by (symmetry; apply Nat.ltb_ge; lia).
    rewrite !onAxis_pure by lia. rewrite Nat.eqb_refl, orb_true_r. split; [reflexivity|].
    split; [exact HF|]. do 2 (split; [reflexivity|]). split; [|reflexivity].
    intros j d Hj Hd. destruct (Nat.eqb_spec j i) as [->|]; [|reflexivity]. rewrite Hi in Hj. injection Hj as <-.
    exfalso. apply (not_int_gas Hd HI).
  - (* pure gas *)
    destruct (gas_shape HG) as (g & a & Hg & Ha & HS).
    assert (El : length (gasR c) = ng).
    { destruct HG as (g' & a' & Hg' & _ & -> & _). rewrite app_length. cbn. rewrite !repeat_length. lia. }
    unfold burstStep. rewrite (isSimplex_one _ _ HS), (origin_one _ _ HS), El.
    rewrite (find_ext_b _ (fun k => Nat.eqb k g)) by (intros; apply onAxis_pure; lia).
    rewrite find_pure. replace (g <? ng)%nat with true by (symmetry; apply Nat.ltb_lt; lia).
    rewrite nth_shape, Nat.eqb_refl. eexists. split; [reflexivity|]. unfold stepOk. cbn [sol burst].
    split; [|split; [|split; [|split]]].
    + intros c' m Hc' Hm'. unfold clear. rewrite upd_other by (pose proof (moment_out c' m Hc' Hm'); lia). apply (HF c' m Hc' Hm').
    + intros h H0. unfold clear. rewrite sum_upd by exact Hin. rewrite (@weight_shape _ i c _ _ _ Hi HS). unfold VI. rewrite !nth_shape.
      destruct (Nat.eqb_spec ng g); [lia|]. destruct (Nat.eqb_spec (S ng) g); [lia|]. rewrite H0. ring.
    + intros g' Hg'. unfold clear. rewrite sum_upd by exact Hin. rewrite (@weight_shape _ i c _ _ _ Hi HS). unfold amount. rewrite nth_shape.
      unfold upd. destruct (Nat.eqb_spec g' g) as [->|]; [ring|]. ring.
    + intros j d Hj Hd. reflexivity.
    + intros j d Hj Hd. unfold clear, upd. destruct (Nat.eqb_spec j i) as [->|]; [|reflexivity]. rewrite Hi in Hj. injection Hj as <-.
      exfalso. apply (not_int_gas (or_introl HG) Hd).
  - (* mixed *)
    pose proof HM as (El & Hgas & Hvac & Hint & HE). unfold burstStep. rewrite El. destruct (isSimplex c) eqn:ES.
    + pose proof (simplex_one _ ES) as HO.
      assert (Hlv : vacR c = one (fst (vacR c))).
      { destruct (mixed_axes HM) as (_ & HV & _). rewrite HO in HV. rewrite nth_error_map in HV. unfold option_map in HV.
        destruct (nth_error (origin c) ng); [|discriminate]. injection HV as HV. rewrite <- HV. reflexivity. }
      assert (HOv : nth ng (origin c) 0%Z = fst (vacR c)).
      { unfold origin, axes. rewrite map_app, app_nth2; rewrite map_length, El; [|lia]. rewrite Nat.sub_diag. reflexivity. }
      assert (HOg : forall g, (g < ng)%nat -> nth g (origin c) 0%Z = fst (nth g (gasR c) (0, 1)%Z)).
      { intros g Hg. unfold origin, axes. rewrite map_app, app_nth1 by (rewrite map_length; lia). apply (map_nth fst _ (0, 1)%Z). }
      assert (HA : forall k, onAxis k (origin c) = false).
      { intros k. destruct (onAxis k (origin c)) eqn:EA; [|reflexivity]. exfalso.
        pose proof (@onAxis_others _ _ EA) as Hz. apply Exists_exists in HE as (r & Hr & Hlt).
        apply In_nth with (d := (0, 1)%Z) in Hr as (g & Hg & Er). rewrite El in Hg.
        destruct (Nat.eq_dec ng k) as [->|Hk]; [|rewrite Hz in HOv by exact Hk; lia].
        pose proof (HOg g Hg) as Ho. rewrite Hz in Ho by lia. rewrite Er in Ho. lia. }
      rewrite (find_ext_b _ (fun _ => false)) by exact HA.
      replace (find (fun _ => false) (seq 0 ng)) with (@None nat) by (generalize (seq 0 ng); intros l; induction l; cbn; auto).
      rewrite !HA. cbn [orb].
      assert (Hvol : volume c = 1%Z).
      { unfold volume. rewrite HO. apply vol_one. }
      destruct (@mixed_step i c s (burst (releaseSimple factor c i s)) [] HF Hi HM) as (f & E & OK); [constructor|exact HT| |].
      { intros g Hg. unfold releaseSimple. cbn [burst]. rewrite (fold_acc _ (fun g => sol s i * IZR (nth g (origin c) 0%Z) * factor)).
        - rewrite El. replace (g <? ng)%nat with true by (symmetry; apply Nat.ltb_lt; lia).
          unfold weight. rewrite (nth_error_nth _ _ _ Hi), HO, comps_one. cbn [Rsum]. unfold amount. ring.
        - intros b g' k. unfold upd. destruct (Nat.eqb_spec k g') as [->|]; reflexivity. }
      rewrite Hlv, inter_one in E. rewrite Hvol in E. unfold len, one in E. cbn [fst snd transferAll] in E.
      replace (fst (vacR c) + 1 - fst (vacR c))%Z with 1%Z in E by lia. replace (1 / 1) with 1 in E by field.
      cbn [sol releaseSimple]. destruct (transfer findV cs i 1 (fst (vacR c)) (sol s)) as [f0|]; [|discriminate].
      injection E as ->. cbn [fold_left] in OK. eexists. split; [reflexivity|]. exact OK.
    + destruct (@mixed_step i c s (burst (releaseGroup factor c i s)) (moms c) HF Hi HM Hms HT) as (f & E & OK).
      { intros g Hg. unfold releaseGroup. cbn [burst].
        rewrite (fold_acc _ (fun g => Rsum (inter (nth g (gasR c) (0, 1)%Z))
          (fun j => sol s i * IZR j * (IZR (volume c) / IZR (len (nth g (gasR c) (0, 1)%Z))) * factor))).
        - rewrite El. replace (g <? ng)%nat with true by (symmetry; apply Nat.ltb_lt; lia).
          rewrite (@weight_mixed_gas g i c Hi HM Hg).
          rewrite (Rsum_ext _ _ (fun j => (sol s i * (IZR (volume c) / IZR (len (nth g (gasR c) (0, 1)%Z))) * factor) * IZR j)) by (intros; ring).
          rewrite Rsum_scal. ring.
        - intros b g' k. apply (fold_inner (fun j => sol s i * IZR j * (IZR (volume c) / IZR (len (nth g' (gasR c) (0, 1)%Z))) * factor)). }
      cbn [sol releaseGroup]. rewrite E. eexists. split; [reflexivity|]. exact OK.
Qed.

Lemma burstLoop_ok : forall rest i s, flat (sol s) -> skipn i cs = rest ->
  exists s', burstLoop factor findV cs i rest s = Some s' /\ flat (sol s') /\
  (forall h, h 0%Z 0%Z = 0 -> Rsum (seq 0 n) (fun j => sol s' j * weight (VI h) j) = Rsum (seq 0 n) (fun j => sol s j * weight (VI h) j)) /\
  (forall g, (g < ng)%nat ->
     burst s' g + factor * Rsum (seq 0 n) (fun j => sol s' j * weight (amount g) j) =
     burst s g + factor * Rsum (seq 0 n) (fun j => sol s j * weight (amount g) j)) /\
  (forall j c, nth_error cs j = Some c -> gasHolding c -> sol s' j = if (i <=? j)%nat then 0 else sol s j) /\
  (forall j c, nth_error cs j = Some c -> interstitialCluster ng c -> sol s' j = sol s j).
Proof.
  induction rest as [|c rest IH]; intros i s HF Hr.
  - exists s. cbn. repeat split; auto. intros j c Hj _. assert (j < n)%nat by (apply nth_error_Some; congruence).
    assert (n <= i)%nat. { pose proof (skipn_length i cs) as HL. rewrite Hr in HL. cbn in HL. lia. }
    destruct (Nat.leb_spec i j); [lia|reflexivity].
  - assert (Hi : nth_error cs i = Some c /\ skipn (S i) cs = rest).
    { clear -Hr. revert i Hr. induction cs as [|d l IHl]; intros [|i] Hr; cbn in *; try discriminate.
      - injection Hr as -> ->. auto.
      - apply IHl in Hr. exact Hr. }
    destruct Hi as [Hi Hr']. destruct (@burstStep_ok i c s HF Hi) as (s1 & E & HF1 & A1 & B1 & D1 & G1).
    destruct (IH (S i) s1 HF1 Hr') as (s2 & E2 & HF2 & A2 & B2 & D2 & G2).
    exists s2. cbn [burstLoop]. rewrite E. split; [exact E2|]. split; [exact HF2|]. split; [|split; [|split]].
    + intros h H0. rewrite A2, A1; auto.
    + intros g Hg. rewrite B2, B1; auto.
    + intros j d Hj Hd. rewrite (D2 j d Hj Hd), (D1 j d Hj Hd).
      destruct (Nat.leb_spec (S i) j), (Nat.leb_spec i j), (Nat.eqb_spec j i); try lia; reflexivity.
    + intros j d Hj Hd. rewrite (G2 j d Hj Hd). apply (G1 j d Hj Hd).
Qed.
End STEP.
