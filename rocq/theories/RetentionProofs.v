(** Fluxes given to the species, exchange between the processes, accumulation. *)
From Verif Require Import RetentionModel Solver1DProofs StencilProofs.
Open Scope R_scope.

(** ** Axes *)
Lemma zeros_spec (o : list Z) : forallb (fun y => (y =? 0)%Z) o = true <-> forall t, nth t o 0%Z = 0%Z.
Proof.
  induction o as [|x o IH]; cbn [forallb].
  - split; auto. intros _ [|t]; reflexivity.
  - rewrite Bool.andb_true_iff, Z.eqb_eq, IH. split.
    + intros [-> H] [|t]; cbn [nth]; auto.
    + intros H. split; [apply (H 0%nat)|]. intros t. apply (H (S t)).
Qed.
Lemma onAxis_spec (o : list Z) : forall k, BurstModel.onAxis k o = true <->
  nth k o 0%Z <> 0%Z /\ forall t, t <> k -> nth t o 0%Z = 0%Z.
Proof.
  induction o as [|x o IH]; intros k.
  - split; [destruct k; discriminate|]. intros [H _]. destruct k; cbn in H; congruence.
  - destruct k as [|k]; cbn [BurstModel.onAxis].
    + rewrite Bool.andb_true_iff, Bool.negb_true_iff, Z.eqb_neq, zeros_spec. cbn [nth]. split.
      * intros [H1 H2]. split; auto. intros [|t] Ht; [congruence|]. apply H2.
      * intros [H1 H2]. split; auto. intros t. apply (H2 (S t)). discriminate.
    + rewrite Bool.andb_true_iff, Z.eqb_eq, IH. cbn [nth]. split.
      * intros [-> [H1 H2]]. split; auto. intros [|t] Ht; auto.
      * intros [H1 H2]. split; [apply (H2 0%nat); discriminate|]. split; auto. intros t Ht. apply (H2 (S t)). congruence.
Qed.
Lemma sum_from (o : list Z) : forall a, fold_left Z.add o a = (a + fold_left Z.add o 0)%Z.
Proof.
  induction o as [|x o IH]; intros a; cbn [fold_left]; [lia|]. rewrite IH, (IH (0 + x)%Z). lia.
Qed.
Lemma sum_zeros (o : list Z) : (forall t, nth t o 0%Z = 0%Z) -> fold_left Z.add o 0%Z = 0%Z.
Proof.
  induction o as [|x o IH]; intros H; cbn [fold_left]; auto. rewrite sum_from, IH.
  - rewrite (H 0%nat : x = 0%Z). reflexivity.
  - intros t. apply (H (S t)).
Qed.
Lemma sum_axis (o : list Z) : forall k, (forall t, t <> k -> nth t o 0%Z = 0%Z) -> fold_left Z.add o 0%Z = nth k o 0%Z.
Proof.
  induction o as [|x o IH]; intros k H; cbn [fold_left]; [destruct k; reflexivity|].
  rewrite sum_from. destruct k as [|k]; cbn [nth].
  - rewrite sum_zeros; [lia|]. intros t. apply (H (S t)). discriminate.
  - rewrite (IH k); [|intros t Ht; apply (H (S t)); congruence]. pose proof (H 0%nat ltac:(discriminate)) as E. cbn in E. lia.
Qed.

Section NET.
Variables (ns : nat) (origin : nat -> list Z).
Definition amount (l s : nat) : Z := nth s (origin l) 0%Z.
Definition pure (l : nat) : Prop := exists s, (s < ns)%nat /\ amount l s <> 0%Z /\ forall t, t <> s -> amount l t = 0%Z.
Lemma axis_pure l s : (s < ns)%nat -> amount l s <> 0%Z -> (forall t, t <> s -> amount l t = 0%Z) -> axis ns origin l = Some s.
Proof.
  intros Hs Hn Hz. unfold axis. destruct (find _ (seq 0 ns)) as [x|] eqn:E.
  - apply find_some in E. destruct E as [_ E]. apply onAxis_spec in E. destruct E as [E _].
    destruct (Nat.eq_dec x s) as [->|N]; auto. destruct E. apply (Hz x N).
  - exfalso. assert (F := find_none _ _ E s). cbv beta in F.
    assert (G : BurstModel.onAxis s (origin l) = true) by (apply onAxis_spec; split; auto).
    rewrite F in G; [discriminate|]. apply in_seq. lia.
Qed.
Lemma give_pure fl l x s : pure l -> give ns origin fl l (IZR (size origin l) * x) s = fl s + IZR (amount l s) * x.
Proof.
  intros (a & Ha & Hn & Hz). unfold give. rewrite (axis_pure l a Ha Hn Hz).
  unfold size. rewrite (sum_axis (origin l) a Hz). fold (amount l a). unfold upd.
  destruct (Nat.eqb_spec s a) as [->|N]; auto. rewrite (Hz s N). ring.
Qed.
Lemma diff_pure c f D k ids : forall fl s, (forall l, In l ids -> pure l) ->
  diffFluxes ns origin c f D k ids fl s = fl s + Rsum ids (fun l => IZR (amount l s) * (f * D l k * c l)).
Proof.
  induction ids as [|l ids IH]; intros fl s H; cbn [diffFluxes fold_left Rsum]; [lra|].
  fold (diffFluxes ns origin c f D k ids (give ns origin fl l (IZR (size origin l) * f * D l k * c l))).
  rewrite IH by (intros; apply H; right; auto).
  replace (IZR (size origin l) * f * D l k * c l) with (IZR (size origin l) * (f * D l k * c l)) by ring.
  rewrite give_pure by (apply H; left; auto). ring.
Qed.
Lemma adv_pure c f D T k ids : 0 < T k -> forall fl s, (forall l, In l ids -> pure (fst l)) ->
  advFluxes ns origin c f D T k ids fl s =
  fl s + Rsum ids (fun l => IZR (amount (fst l) s) * (f * D (fst l) k * c (fst l) * snd l / T k)).
Proof.
  intros HT. induction ids as [|l ids IH]; intros fl s H; [cbn [advFluxes fold_left Rsum]; lra|].
  change (advFluxes ns origin c f D T k (l :: ids) fl s) with
    (advFluxes ns origin c f D T k ids (give ns origin fl (fst l)
       (if Rlt_dec 0 (T k) then IZR (size origin (fst l)) * f * D (fst l) k * c (fst l) * snd l / T k else 0)) s).
  rewrite IH by (intros; apply H; right; auto). cbn [Rsum].
  destruct (Rlt_dec 0 (T k)) as [_|N]; [|contradiction].
  replace (IZR (size origin (fst l)) * f * D (fst l) k * c (fst l) * snd l / T k)
    with (IZR (size origin (fst l)) * (f * D (fst l) k * c (fst l) * snd l / T k)) by (field; lra).
  rewrite give_pure by (apply H; left; auto). ring.
Qed.
End NET.

(** ** Processes *)
Lemma owns_In p xi : owns p xi = true <-> In xi (owned p).
Proof.
  unfold owns, owned. rewrite in_seq, Bool.andb_true_iff, Nat.leb_le, Nat.ltb_lt. reflexivity.
Qed.
(** The processes share out the points 0 .. nX-1. *)
Definition shared (procs : list proc) (nX : nat) : Prop := flat_map owned procs = seq 0 nX.
Lemma one_owner procs : forall xi, NoDup (flat_map owned procs) -> In xi (flat_map owned procs) ->
  exists l1 p l2, procs = l1 ++ p :: l2 /\ owns p xi = true /\
    (forall q, In q l1 -> owns q xi = false) /\ (forall q, In q l2 -> owns q xi = false).
Proof.
  induction procs as [|p procs IH]; intros xi Hd Hi; [destruct Hi|]. cbn [flat_map] in *.
  destruct (owns p xi) eqn:E.
  - exists [], p, procs. repeat split; auto; [intros q []|]. intros q Hq.
    destruct (owns q xi) eqn:F; auto. exfalso. apply owns_In in E, F.
    apply in_split in E. destruct E as (a & b & E). rewrite E in Hd. rewrite <- app_assoc in Hd. apply NoDup_remove_2 in Hd.
    apply Hd. rewrite !in_app_iff. right. right. apply in_flat_map. exists q. auto.
  - apply in_app_iff in Hi. destruct Hi as [Hi|Hi]; [apply owns_In in Hi; congruence|].
    destruct (IH xi) as (l1 & q & l2 & -> & H1 & H2 & H3); auto.
    { revert Hd. clear. induction (owned p) as [|x l IH]; cbn [app]; auto. intros H. inversion H; auto. }
    exists (p :: l1), q, l2. repeat split; auto. intros r [<-|Hr]; auto.
Qed.
Lemma sum_owner xi : forall procs n a, (forall q, In q procs -> owns q xi = false) ->
  fold_left (fun a rp => (a + if owns (snd rp) xi then fst rp else 0)%nat) (combine (seq n (length procs)) procs) a = a.
Proof.
  induction procs as [|p procs IH]; intros n a H; cbn [length seq combine fold_left]; auto.
  cbn [fst snd]. rewrite (H p) by (left; auto). rewrite IH by (intros; apply H; right; auto). lia.
Qed.
Lemma combine_app A B (a1 : list A) : forall (b1 : list B) a2 b2, length a1 = length b1 ->
  combine (a1 ++ a2) (b1 ++ b2) = combine a1 b1 ++ combine a2 b2.
Proof. induction a1 as [|x a1 IH]; intros [|y b1] a2 b2 H; cbn in *; try discriminate; auto. rewrite IH by lia. reflexivity. Qed.
Lemma owner_id xi l1 p l2 : owns p xi = true -> (forall q, In q l1 -> owns q xi = false) -> (forall q, In q l2 -> owns q xi = false) ->
  fold_left (fun a rp => (a + if owns (snd rp) xi then fst rp else 0)%nat)
            (combine (seq 0 (length (l1 ++ p :: l2))) (l1 ++ p :: l2)) 0%nat = length l1.
Proof.
  intros Hp H1 H2. rewrite app_length. cbn [length]. rewrite seq_app.
  rewrite combine_app by (rewrite seq_length; reflexivity). rewrite fold_left_app, (sum_owner xi l1) by auto.
  cbn [seq combine fold_left fst snd]. rewrite Hp, sum_owner by auto. lia.
Qed.
Lemma combine_repeat A B (l : list A) (b : B) : combine l (repeat b (length l)) = map (fun a => (a, b)) l.
Proof. induction l as [|x l IH]; cbn; auto. rewrite IH. reflexivity. Qed.
Lemma map_const A B (l : list A) (b : B) : map (fun _ => b) l = repeat b (length l).
Proof. induction l as [|x l IH]; cbn; auto. rewrite IH. reflexivity. Qed.
Lemma monitorAt_shared nX xi skip flux procs k o s : shared procs nX -> (xi < nX)%nat ->
  exists p, In p procs /\ owns p xi = true /\
    monitorAt xi skip flux procs k o (repeat s (length procs)) =
    Some (repeat (local skip k (odt o) (flux p o) s) (length procs)).
Proof.
  intros Hs Hx. destruct (@one_owner procs xi) as (l1 & p & l2 & -> & Hp & H1 & H2).
  - rewrite Hs. apply seq_NoDup.
  - rewrite Hs. apply in_seq. lia.
  - exists p. split; [apply in_elt|]. split; auto. unfold monitorAt, exchange.
    rewrite (owner_id xi l1 p l2) by auto. rewrite combine_repeat, !map_map.
    rewrite map_app. cbn [map fst snd]. rewrite Hp.
    rewrite nth_error_app2 by (rewrite map_length; lia). rewrite map_length, Nat.sub_diag. cbn [nth_error].
    rewrite map_app. cbn [map]. rewrite !map_map, !map_const, app_length. cbn [length].
    rewrite repeat_app. reflexivity.
Qed.
(** The values after a run, when the flux does not depend on the process. *)
Section RUN.
Variables (nX xi : nat) (skip : nat -> bool) (flux : proc -> out -> nat -> R) (procs : list proc) (f : out -> nat -> R).
Hypothesis sh : shared procs nX.
Hypothesis inside : (xi < nX)%nat.
Lemma monitor_run_in os : (forall o p s, In o os -> owns p xi = true -> flux p o s = f o s) -> forall k st,
  exists st', monitor xi skip flux procs k os (repeat st (length procs)) = Some (repeat st' (length procs)) /\
  (forall s, skip s = true -> total st' s = total st s /\ prev st' s = prev st s) /\
  (forall s, skip s = false ->
     total st' s = total st s + match os with
                                | [] => 0
                                | o :: r => (if (0 <? k)%nat then prev st s * odt o else 0) +
                                            Rsum (combine os r) (fun oo => f (fst oo) s * odt (snd oo))
                                end).
Proof using sh inside.
  induction os as [|o os IH]; intros same k st.
  - exists st. cbn [monitor]. split; auto. split; intros; [auto|lra].
  - cbn [monitor]. destruct (monitorAt_shared nX xi skip flux procs k o st sh inside) as (p & Hp & Ho & E). rewrite E.
    destruct (IH (fun o' q s Hi => same o' q s (or_intror Hi)) (S k) (local skip k (odt o) (flux p o) st)) as (st' & E' & Hk & Hn).
    exists st'. split; auto. split.
    + intros s Hs. destruct (Hk s Hs) as [A B]. cbn [local total prev] in A, B. rewrite Hs in A, B. auto.
    + intros s Hs. rewrite (Hn s Hs). cbn [local total prev]. rewrite Hs.
      destruct os as [|o2 os]; cbn [combine Rsum fst snd].
      * destruct (0 <? k)%nat; lra.
      * rewrite same by (auto; left; auto). change (0 <? S k)%nat with true. cbv iota. destruct (0 <? k)%nat; lra.
Qed.
End RUN.

(** ** Content *)
Section CONTENT.
Variables (grid : nat -> R) (nX lo ro : nat) (tot : nat -> nat -> R) (s : nat).
Lemma my_sum l : forall a, fold_left (fun acc xi =>
    if (xi <? lo)%nat || (nX - ro <=? xi)%nat then acc
    else acc + tot xi s * (grid (xi + 1)%nat - grid xi)) l a =
  a + Rsum l (fun xi => if (xi <? lo)%nat || (nX - ro <=? xi)%nat then 0 else tot xi s * (grid (xi + 1)%nat - grid xi)).
Proof using.
  induction l as [|x l IH]; intros a; cbn [fold_left Rsum]; [lra|]. rewrite IH.
  destruct ((x <? lo)%nat || (nX - ro <=? x)%nat)%bool; lra.
Qed.
Lemma content_sum procs : shared procs nX ->
  content grid nX lo ro tot procs s =
  Rsum (seq 0 nX) (fun xi => if (xi <? lo)%nat || (nX - ro <=? xi)%nat then 0 else tot xi s * (grid (xi + 1)%nat - grid xi)).
Proof using.
  intros <-. unfold content.
  assert (G : forall l a, fold_left Rplus l a = a + Rsum l (fun x => x)).
  { induction l as [|x l IH]; intros a; cbn [fold_left Rsum]; [lra|]. rewrite IH. lra. }
  rewrite G, Rplus_0_l, Rsum_map, Rsum_flat_map. apply Rsum_ext. intros p _. unfold myContent. rewrite my_sum. lra.
Qed.
End CONTENT.
Lemma seq_band lo n hi : seq 0 (lo + n + hi) = seq 0 lo ++ seq lo n ++ seq (lo + n) hi.
Proof. rewrite <- Nat.add_assoc, seq_app, seq_app. reflexivity. Qed.
