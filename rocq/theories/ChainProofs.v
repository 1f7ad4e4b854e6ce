From Coq Require Import Permutation.
From Verif Require Export ChainModel.
Set Implicit Arguments.

Section CHAIN.
Variable A : Type.
Implicit Types c t : chain A.

Fixpoint good c (b e : nat) : Prop :=
  match c with End x => x = e | Link v b' t => b' = b /\ good t (b + length v) e end.
Fixpoint endIndex c : nat := match c with End x => x | Link _ _ t => endIndex t end.

Lemma updateIndices_good c b : good (updateIndices c b) b (endIndex c).
Proof. revert b. induction c as [x|v b' t IH]; intros b; cbn; [reflexivity|]. split; [reflexivity|apply IH]. Qed.
Lemma good_end c b e : good c b e -> endIndex c = e.
Proof. revert b. induction c as [x|v b' t IH]; intros b; cbn; [auto|]. intros [_ H]. eapply IH; eauto. Qed.
Lemma setView_good c k v b e : good c b e -> good (setView c k v) b e.
Proof.
  revert k b. induction c as [x|w b' t IH]; intros [|k] b; cbn; auto; intros [-> H].
  - split; [reflexivity|]. rewrite <- (@good_end _ _ _ H). apply updateIndices_good.
  - split; [reflexivity|]. apply IH. exact H.
Qed.
Lemma setViews_good h c b e : good c b e -> good (setViews c h) b e.
Proof.
  revert c. induction h as [|[k v] h IH]; intros c H; [exact H|]. cbn. apply IH. apply setView_good. exact H.
Qed.
Lemma construct_good b (vs : list (list A)) : good (construct b vs) b (b + length (concat vs)).
Proof.
  revert b. induction vs as [|v vs IH]; intros b; cbn; [lia|]. split; [reflexivity|].
  rewrite app_length, Nat.add_assoc. apply IH.
Qed.
Lemma default_good n : good (defaultChain A n) 0 0.
Proof. induction n as [|n IH]; cbn; [reflexivity|]. split; [reflexivity|]. exact IH. Qed.

Lemma getNumberOfElements_eq c : getNumberOfElements c = length (concat (getViews c)).
Proof. induction c as [x|v b t IH]; cbn; [reflexivity|]. rewrite app_length, IH. reflexivity. Qed.
Lemma getViews_updateIndices c b : getViews (updateIndices c b) = getViews c.
Proof. revert b. induction c as [x|v b' t IH]; intros b; cbn; [reflexivity|]. rewrite IH. reflexivity. Qed.
Lemma getViews_construct b (vs : list (list A)) : getViews (construct b vs) = vs.
Proof. revert b. induction vs as [|v vs IH]; intros b; cbn; [reflexivity|]. rewrite IH. reflexivity. Qed.

Definition lookup (l : list A) (i : nat) : outcome A :=
  match nth_error l i with Some a => Called a | None => Outside end.

Lemma apply_spec c b e : good c b e -> forall j, j < length (concat (getViews c)) ->
  apply c (b + j) =
    if (j <? length (concat (removelast (getViews c)))) || (b + j <? e)
    then lookup (concat (getViews c)) j else NotCalled.
Proof.
  revert b. induction c as [x|v b' t IH]; intros b H j Hj; [cbn in Hj; lia|].
  destruct H as [-> H]. destruct t as [x|w b2 t].
  - cbn in H. subst x. cbn [getViews concat removelast length] in *. rewrite app_nil_r in *.
    cbn [apply getIndexBegin]. replace (j <? 0) with false by (symmetry; apply Nat.ltb_ge; lia). cbn [orb].
    destruct (b + j <? e); [|reflexivity].
    replace (b + j <? b) with false by (symmetry; apply Nat.ltb_ge; lia).
    replace (b + j - b) with j by lia. reflexivity.
  - assert (Eb : b2 = b + length v) by (cbn in H; tauto). subst b2.
    change (getViews (Link v b (Link w (b + length v) t))) with (v :: getViews (Link w (b + length v) t)) in *.
    set (T := Link w (b + length v) t) in *.
    assert (ER : removelast (v :: getViews T) = v :: removelast (getViews T)) by reflexivity.
    rewrite ER. cbn [concat] in *. rewrite app_length in *.
    change (apply (Link v b T) (b + j)) with
      (if b + j <? b + length v then if b + j <? b then Outside
        else match nth_error v (b + j - b) with Some a => Called a | None => Outside end else apply T (b + j)).
    destruct (b + j <? b + length v) eqn:E.
    + apply Nat.ltb_lt in E. replace (b + j <? b) with false by (symmetry; apply Nat.ltb_ge; lia).
      replace (b + j - b) with j by lia.
      replace (j <? length v + length (concat (removelast (getViews T)))) with true by (symmetry; apply Nat.ltb_lt; lia).
      cbn [orb]. unfold lookup. rewrite nth_error_app1 by lia. reflexivity.
    + apply Nat.ltb_ge in E. specialize (IH _ H (j - length v)).
      replace (b + length v + (j - length v)) with (b + j) in IH by lia. rewrite IH by lia.
      unfold lookup. rewrite nth_error_app2 by lia.
      replace (j - length v <? length (concat (removelast (getViews T))))
        with (j <? length v + length (concat (removelast (getViews T)))); [reflexivity|].
      destruct (j <? _) eqn:E1; symmetry; [apply Nat.ltb_lt in E1; apply Nat.ltb_lt; lia|apply Nat.ltb_ge in E1; apply Nat.ltb_ge; lia].
Qed.

Lemma map_lookup (l : list A) : map (lookup l) (seq 0 (length l)) = map (@Called A) l.
Proof.
  induction l as [|a l IH] using rev_ind; [reflexivity|].
  rewrite app_length, seq_app, !map_app. cbn. f_equal.
  - rewrite <- IH. apply map_ext_in. intros i Hi. apply in_seq in Hi. unfold lookup. rewrite nth_error_app1 by lia. reflexivity.
  - unfold lookup. rewrite nth_error_app2, Nat.sub_diag by lia. reflexivity.
Qed.

(** What forEach calls, after any history. *)
Lemma concat_removelast (vs : list (list A)) : vs <> [] -> concat vs = concat (removelast vs) ++ last vs [].
Proof. intros H. rewrite (app_removelast_last [] H) at 1. rewrite concat_app. cbn. rewrite app_nil_r. reflexivity. Qed.

Lemma forEach_full c e : good c 0 e -> length (concat (getViews c)) <= e ->
  forEach c = map (@Called A) (concat (getViews c)).
Proof.
  intros H He. unfold forEach. rewrite getNumberOfElements_eq, <- map_lookup. apply map_ext_in.
  intros i Hi. apply in_seq in Hi. change i with (0 + i) at 1. rewrite (@apply_spec c 0 e H) by lia.
  replace (0 + i <? e) with true by (symmetry; apply Nat.ltb_lt; lia). rewrite orb_true_r. reflexivity.
Qed.

Lemma nth_error_firstn_lt (l : list A) q k : k < q -> nth_error (firstn q l) k = nth_error l k.
Proof. revert q l. induction k as [|k IH]; intros [|q] [|a l] H; cbn; try lia; auto. apply IH. lia. Qed.

Lemma forEach_gen c e : good c 0 e -> getViews c <> [] ->
  let p := concat (removelast (getViews c)) in let l := last (getViews c) [] in
  forEach c = map (@Called A) (p ++ firstn (e - length p) l)
              ++ repeat NotCalled (length l - (e - length p)).
Proof.
  intros H Hne p l. pose proof (concat_removelast Hne) as E. fold p l in E.
  unfold forEach. rewrite getNumberOfElements_eq, E, app_length.
  set (q := e - length p).
  assert (Hq : length (p ++ firstn q l) + (length l - q) = length p + length l).
  { rewrite app_length, firstn_length. lia. }
  rewrite <- Hq, seq_app, map_app. f_equal.
  - rewrite <- map_lookup. apply map_ext_in. intros i Hi. apply in_seq in Hi. rewrite app_length, firstn_length in Hi.
    change i with (0 + i) at 1. rewrite (@apply_spec c 0 e H); [|rewrite E, app_length; lia]. rewrite E. fold p.
    replace ((i <? length p) || (0 + i <? e)) with true.
    + unfold lookup. destruct (Nat.lt_ge_cases i (length p)).
      * rewrite !nth_error_app1 by lia. reflexivity.
      * rewrite !nth_error_app2 by lia. rewrite nth_error_firstn_lt by lia. reflexivity.
    + symmetry. destruct (i <? length p) eqn:E1; [reflexivity|]. apply Nat.ltb_ge in E1. cbn [orb]. apply Nat.ltb_lt. unfold q in *. lia.
  - cbn [Nat.add]. transitivity (map (fun _ => @NotCalled A) (seq (length (p ++ firstn q l)) (length l - q))).
    + apply map_ext_in. intros i Hi. apply in_seq in Hi. rewrite app_length, firstn_length in Hi.
      change i with (0 + i) at 1. rewrite (@apply_spec c 0 e H); [|rewrite E, app_length; lia]. fold p.
      replace ((i <? length p) || (0 + i <? e)) with false; [reflexivity|].
      symmetry. apply orb_false_iff. split; apply Nat.ltb_ge; unfold q in *; lia.
    + generalize (length (p ++ firstn q l)). generalize (length l - q). clear. induction n as [|n IH]; intros m; cbn; [reflexivity|]. f_equal. apply IH.
Qed.

Fixpoint prefixSums (b : nat) (vs : list (list A)) : list nat :=
  match vs with [] => [b] | v :: l => b :: prefixSums (b + length v) l end.
Lemma begins_good c b e : good c b e -> removelast (getElementBeginIndices c) = removelast (prefixSums b (getViews c))
  /\ last (getElementBeginIndices c) 0 = e.
Proof.
  revert b. induction c as [x|v b' t IH]; intros b H; cbn in *; [auto|]. destruct H as [-> H].
  destruct (IH _ H) as [E1 E2]. clear IH.
  destruct (getElementBeginIndices t) eqn:E; [destruct t; discriminate|]. rewrite E1, <- E2.
  destruct (prefixSums (b + length v) (getViews t)) eqn:E3; [destruct t; discriminate|]. split; reflexivity.
Qed.
End CHAIN.

(** ** Moment ids. *)
Section MOMENTS.
Variable slot : nat -> nat.
Variable clusters : list (list Z).
Notation n := (length clusters).

(** The grouped axes of a cluster, in order. *)
Definition groupedFrom (k : nat) (ws : list Z) : list nat :=
  map fst (filter (fun kw => negb (snd kw =? 1)%Z) (combine (seq k (length ws)) ws)).
Notation grouped := (groupedFrom 0).
(** All grouped (cluster, axis) pairs, in order. *)
Definition groupedPairs : list (nat * nat) :=
  flat_map (fun i => map (pair i) (grouped (nth i clusters []))) (seq 0 n).

Lemma grouped_snoc ws w : grouped (ws ++ [w]) = grouped ws ++ (if (w =? 1)%Z then [] else [length ws]).
Proof using.
  unfold groupedFrom. rewrite app_length, seq_app. cbn [length seq].
  assert (E : forall (l1 l1' : list nat) (l2 l2' : list Z), length l1 = length l2 -> combine (l1 ++ l1') (l2 ++ l2') = combine l1 l2 ++ combine l1' l2').
  { clear. induction l1 as [|a l1 IH]; intros l1' [|b l2] l2' H; cbn in *; try discriminate; auto. rewrite IH by lia. reflexivity. }
  rewrite E by apply seq_length. rewrite filter_app, map_app. f_equal. cbn. destruct (w =? 1)%Z; reflexivity.
Qed.
Lemma grouped_In ws k : In k (grouped ws) <-> exists w, nth_error ws k = Some w /\ w <> 1%Z.
Proof using.
  clear slot.
  induction ws as [|w ws IH] using rev_ind.
  - cbn. split; [tauto|]. intros (w & H & _). destruct k; discriminate.
  - rewrite grouped_snoc, in_app_iff, IH. split.
    + intros [(x & H & Hx)|H].
      * exists x. split; [|exact Hx]. rewrite nth_error_app1; [exact H|]. apply nth_error_Some. congruence.
      * destruct (Z.eqb_spec w 1); [destruct H|]. destruct H as [<-|[]]. exists w. rewrite nth_error_app2, Nat.sub_diag by lia. auto.
    + intros (x & H & Hx). destruct (Nat.lt_ge_cases k (length ws)) as [Hk|Hk].
      * left. rewrite nth_error_app1 in H by exact Hk. eauto.
      * right. rewrite nth_error_app2 in H by exact Hk. destruct (k - length ws) as [|d] eqn:Ed; [|destruct d; discriminate].
        injection H as <-. destruct (Z.eqb_spec w 1); [contradiction|]. left. lia.
Qed.
Lemma grouped_lt ws k : In k (grouped ws) -> k < length ws.
Proof using. rewrite grouped_In. intros (w & H & _). apply nth_error_Some. congruence. Qed.
Lemma grouped_sorted ws p q a b : nth_error (grouped ws) p = Some a -> nth_error (grouped ws) q = Some b -> p < q -> a < b.
Proof using.
  clear slot.
  revert p q a b. induction ws as [|w ws IH] using rev_ind; intros p q a b Hp Hq Hpq.
  - destruct p; discriminate.
  - rewrite grouped_snoc in Hp, Hq. destruct (w =? 1)%Z; [rewrite app_nil_r in *; eauto|].
    assert (Hql : q < length (grouped ws ++ [length ws])) by (apply nth_error_Some; congruence).
    rewrite app_length in Hql. cbn in Hql.
    rewrite nth_error_app1 in Hp by lia. destruct (Nat.lt_ge_cases q (length (grouped ws))).
    + rewrite nth_error_app1 in Hq by lia. eauto.
    + rewrite nth_error_app2 in Hq by lia. replace (q - length (grouped ws)) with 0 in Hq by lia. injection Hq as <-.
      apply grouped_lt. eapply nth_error_In; eauto.
Qed.
Lemma countAxes_grouped ws : countAxes ws = length (grouped ws).
Proof using.
  unfold groupedFrom. generalize 0. induction ws as [|w ws IH]; intros k; cbn; [reflexivity|].
  rewrite (IH (S k)). destruct (w =? 1)%Z; reflexivity.
Qed.

(** The pass over the axes of one cluster. *)
Definition okRow (ws : list Z) : Prop :=
  forall a b, In a (grouped ws) -> In b (grouped ws) -> slot a = slot b -> a = b.
Hypothesis Hmono : forall a b, a <= b -> slot a <= slot b.

Lemma assign_spec base ws : 0 < n -> okRow ws ->
  exists row, fold_left (assignAxis slot clusters) ws (0, base, fun _ => None)
    = (length ws, base + length (grouped ws), row) /\
  forall s id, row s = Some id <-> exists p k, nth_error (grouped ws) p = Some k /\ slot k = s /\ id = n + base + p.
Proof.
  intros Hn. induction ws as [|w ws IH] using rev_ind; intros Hok.
  - exists (fun _ => None). split; [cbn; f_equal; f_equal; lia|]. intros s id. split; [discriminate|].
    intros (p & k & H & _). destruct p; discriminate.
  - destruct IH as (row & E & Hrow).
    { intros a b Ha Hb. apply Hok; rewrite grouped_snoc, in_app_iff; auto. }
    rewrite fold_left_app, E. cbn [fold_left]. unfold assignAxis. rewrite grouped_snoc in *.
    unfold okRow in Hok. rewrite grouped_snoc in Hok.
    destruct (Z.eqb_spec w 1) as [->|Hw].
    + rewrite app_nil_r in *. rewrite app_length. cbn [length]. rewrite Nat.add_1_r.
      destruct (row (slot (length ws))) as [id|] eqn:Er.
      * apply Hrow in Er as (p & k & Hp & Hs & Eid).
        assert (Hlast : p = length (grouped ws) - 1).
        { assert (p < length (grouped ws)) by (apply nth_error_Some; congruence).
          destruct (Nat.eq_dec p (length (grouped ws) - 1)) as [|Hd]; [assumption|exfalso].
          destruct (nth_error (grouped ws) (length (grouped ws) - 1)) as [k'|] eqn:Ek'; [|apply nth_error_None in Ek'; lia].
          assert (k < k') by (eapply grouped_sorted; eauto; lia).
          assert (k' < length ws) by (apply grouped_lt; eapply nth_error_In; eauto).
          assert (slot k' = slot k).
          { assert (slot k <= slot k') by (apply Hmono; lia). assert (slot k' <= slot (length ws)) by (apply Hmono; lia). lia. }
          assert (k' = k); [|lia]. apply Hok; auto; eapply nth_error_In; eauto. }
        assert (0 < length (grouped ws)) by (destruct (grouped ws); [destruct p; discriminate|cbn; lia]).
        replace (id =? n + (base + length (grouped ws)) - 1) with true by (symmetry; apply Nat.eqb_eq; lia).
        exists row. split; [reflexivity|exact Hrow].
      * exists (setSlot row (slot (length ws)) None). split; [reflexivity|]. intros s id. unfold setSlot.
        destruct (Nat.eqb_spec s (slot (length ws))) as [->|]; [rewrite <- Hrow, Er; tauto|apply Hrow].
    + rewrite !app_length. cbn [length]. exists (setSlot row (slot (length ws)) (Some (n + (base + length (grouped ws))))).
      split; [f_equal; f_equal; lia|]. intros s id. unfold setSlot.
      destruct (Nat.eqb_spec s (slot (length ws))) as [->|Hs].
      * split.
        -- intros [= <-]. exists (length (grouped ws)), (length ws). rewrite nth_error_app2, Nat.sub_diag by lia. repeat split; lia.
        -- intros (p & k & Hp & Hk & ->). assert (k = length ws).
           { apply Hok; [eapply nth_error_In; eauto|apply in_app_iff; right; left; reflexivity|exact Hk]. }
           subst k. destruct (Nat.lt_ge_cases p (length (grouped ws))) as [Hlt|Hge].
           ++ rewrite nth_error_app1 in Hp by lia. apply nth_error_In, grouped_lt in Hp. lia.
           ++ assert (p < length (grouped ws ++ [length ws])) by (apply nth_error_Some; congruence).
              rewrite app_length in H. cbn in H. f_equal. lia.
      * rewrite Hrow. split.
        -- intros (p & k & Hp & Hk & ->). exists p, k. rewrite nth_error_app1 by (apply nth_error_Some; congruence). auto.
        -- intros (p & k & Hp & Hk & ->). exists p, k. split; [|auto].
           destruct (Nat.lt_ge_cases p (length (grouped ws))) as [Hlt|Hge]; [rewrite nth_error_app1 in Hp by lia; exact Hp|].
           rewrite nth_error_app2 in Hp by lia. destruct (p - length (grouped ws)) as [|d]; [|destruct d; discriminate].
           injection Hp as <-. congruence.
Qed.

Lemma total_app l1 l2 : total (l1 ++ l2) = total l1 + total l2.
Proof using. induction l1; cbn; lia. Qed.
Lemma pairs_firstn m : m <= n ->
  length (flat_map (fun i => map (pair i) (grouped (nth i clusters []))) (seq 0 m)) = total (firstn m (counts clusters)).
Proof using.
  induction m as [|m IH]; intros Hm; [reflexivity|].
  rewrite seq_S, flat_map_app, app_length, IH by lia. cbn [flat_map Nat.add]. rewrite app_nil_r, map_length.
  unfold counts. rewrite <- countAxes_grouped.
  assert (E : nth_error (map countAxes clusters) m = Some (countAxes (nth m clusters []))).
  { erewrite map_nth_error; [reflexivity|]. apply nth_error_nth'. lia. }
  replace (firstn (S m) (map countAxes clusters)) with (firstn m (map countAxes clusters) ++ [countAxes (nth m clusters [])]).
  - rewrite total_app. cbn. lia.
  - clear -E. revert m E. generalize (countAxes (nth 0 clusters [])) as dummy. intros _.
    generalize (map countAxes clusters) as l. intros l m. generalize (countAxes (nth m clusters [])) as x. intros x. revert l.
    induction m as [|m IH]; intros [|a l]; cbn; try discriminate; [intros [= ->]; reflexivity|]. intros E. f_equal. apply IH. exact E.
Qed.
Lemma nMomentIds_eq : nMomentIds clusters = length groupedPairs.
Proof using.
  unfold groupedPairs. rewrite pairs_firstn by lia. unfold nMomentIds.
  rewrite firstn_all2; [reflexivity|]. unfold counts. rewrite map_length. lia.
Qed.

Lemma nth_error_flat (f : nat -> list (nat * nat)) m i p x : i < m ->
  nth_error (f i) p = Some x -> nth_error (flat_map f (seq 0 m)) (length (flat_map f (seq 0 i)) + p) = Some x.
Proof using.
  intros Hi H. replace m with (i + S (m - S i)) by lia. rewrite seq_app, flat_map_app, nth_error_app2 by lia.
  replace (_ + p - _) with p by lia. cbn [seq flat_map Nat.add]. rewrite nth_error_app1; [exact H|]. apply nth_error_Some. congruence.
Qed.
Lemma nth_error_flat_inv (f : nat -> list (nat * nat)) m q x :
  nth_error (flat_map f (seq 0 m)) q = Some x ->
  exists i p, i < m /\ nth_error (f i) p = Some x /\ q = length (flat_map f (seq 0 i)) + p.
Proof using.
  induction m as [|m IH]; [destruct q; discriminate|]. rewrite seq_S, flat_map_app. intros H.
  destruct (Nat.lt_ge_cases q (length (flat_map f (seq 0 m)))) as [Hq|Hq].
  - rewrite nth_error_app1 in H by exact Hq. destruct (IH H) as (i & p & Hi & E & ->). exists i, p. repeat split; auto.
  - rewrite nth_error_app2 in H by exact Hq. cbn [flat_map Nat.add] in H. rewrite app_nil_r in H.
    exists m, (q - length (flat_map f (seq 0 m))). repeat split; auto. lia.
Qed.

Lemma momentIds_spec : (forall ws, In ws clusters -> okRow ws) ->
  forall i s id, i < n ->
  momentIds slot clusters i s = Some id <->
  exists k p, nth_error groupedPairs p = Some (i, k) /\ slot k = s /\ id = n + p.
Proof.
  intros Hok i s id Hi. unfold momentIds.
  destruct (@assign_spec (scanned clusters i) (nth i clusters [])) as (row & E & Hrow); [lia|apply Hok; apply nth_In; exact Hi|].
  rewrite E. cbn [snd]. rewrite Hrow. unfold scanned. rewrite <- pairs_firstn by lia. split.
  - intros (p & k & Hp & Hs & ->). exists k, (length (flat_map (fun i => map (pair i) (grouped (nth i clusters []))) (seq 0 i)) + p).
    split; [|split; [exact Hs|lia]]. apply nth_error_flat; [exact Hi|]. apply map_nth_error. exact Hp.
  - intros (k & p & Hp & Hs & ->). unfold groupedPairs in Hp. apply nth_error_flat_inv in Hp as (i' & p' & Hi' & Hp & ->).
    assert (Hin := nth_error_In _ _ Hp). apply in_map_iff in Hin as (k' & [= -> ->] & _).
    exists p', k. split; [|split; [exact Hs|lia]].
    destruct (nth_error (grouped (nth i clusters [])) p') as [k2|] eqn:E2.
    + rewrite (map_nth_error (pair i) _ _ E2) in Hp. congruence.
    + exfalso. apply nth_error_None in E2. assert (p' < length (map (pair i) (grouped (nth i clusters [])))) by (apply nth_error_Some; congruence).
      rewrite map_length in H. lia.
Qed.
Lemma groupedPairs_NoDup : NoDup groupedPairs.
Proof using.
  clear Hmono slot.
  unfold groupedPairs. apply NoDup_nth_error. intros a b Ha E.
  destruct (nth_error (flat_map (fun i => map (pair i) (grouped (nth i clusters []))) (seq 0 n)) a) as [[i k]|] eqn:Ea; [|apply nth_error_None in Ea; lia].
  symmetry in E. apply nth_error_flat_inv in Ea as (i1 & p1 & H1 & E1 & ->). apply nth_error_flat_inv in E as (i2 & p2 & H2 & E2 & ->).
  assert (I1 := nth_error_In _ _ E1). assert (I2 := nth_error_In _ _ E2).
  apply in_map_iff in I1 as (? & [= -> ->] & _). apply in_map_iff in I2 as (? & [= -> ->] & _). f_equal.
  assert (G : forall p, nth_error (map (pair i) (grouped (nth i clusters []))) p = Some (i, k) -> nth_error (grouped (nth i clusters [])) p = Some k).
  { intros p H. destruct (nth_error (grouped (nth i clusters [])) p) as [x|] eqn:Ex.
    - rewrite (map_nth_error (pair i) _ _ Ex) in H. congruence.
    - apply nth_error_None in Ex. assert (p < length (map (pair i) (grouped (nth i clusters [])))) by (apply nth_error_Some; congruence). rewrite map_length in *. lia. }
  apply G in E1. apply G in E2. destruct (Nat.lt_trichotomy p1 p2) as [H|[H|H]]; [|exact H|].
  - pose proof (@grouped_sorted _ _ _ _ _ E1 E2 H). lia.
  - pose proof (@grouped_sorted _ _ _ _ _ E2 E1 H). lia.
Qed.
End MOMENTS.
