(** Concurrent connectivity: proofs. *)
From Verif Require Export ConnModel.
Set Implicit Arguments.

Definition cntOf A (all : list (nat * A)) (r : nat) : nat := length (filter (fun o => fst o =? r) all).
Definition colsOf A (all : list (nat * A)) (r : nat) : list A := map snd (filter (fun o => fst o =? r) all).

Lemma colsOf_length A (all : list (nat * A)) r : length (colsOf all r) = cntOf all r.
Proof. unfold colsOf, cntOf. apply map_length. Qed.
Lemma colsOf_In A (all : list (nat * A)) r c : In c (colsOf all r) <-> In (r, c) all.
Proof.
  unfold colsOf. rewrite in_map_iff. split.
  - intros [[r' c'] [E H]]. apply filter_In in H as [H E']. cbn in *. apply Nat.eqb_eq in E'. subst. exact H.
  - intros H. exists (r, c). split; [reflexivity|]. apply filter_In. split; [exact H|apply Nat.eqb_refl].
Qed.
Lemma cntOf_app A (l1 l2 : list (nat * A)) r : cntOf (l1 ++ l2) r = cntOf l1 r + cntOf l2 r.
Proof. unfold cntOf. rewrite filter_app, app_length. reflexivity. Qed.
Lemma cntOf_perm A (l1 l2 : list (nat * A)) r : Permutation l1 l2 -> cntOf l1 r = cntOf l2 r.
Proof.
  induction 1; unfold cntOf in *; cbn; auto.
  - destruct (fst x =? r); cbn; auto.
  - destruct (fst x =? r), (fst y =? r); cbn; auto.
  - congruence.
Qed.

Lemma countPass_gen A (order : list (nat * A)) f r : fold_left (fun f o => incr f (fst o)) order f r = f r + cntOf order r.
Proof.
  revert f. induction order as [|o order IH]; intros f; cbn [fold_left].
  - unfold cntOf; cbn. lia.
  - rewrite IH. unfold incr, cntOf. cbn [filter]. rewrite (Nat.eqb_sym (fst o) r). destruct (r =? fst o); cbn; lia.
Qed.
Lemma countPass_any A (order all : list (nat * A)) r : Permutation order all -> countPass order r = cntOf all r.
Proof. intros H. unfold countPass. rewrite countPass_gen, (cntOf_perm r H). reflexivity. Qed.

Lemma scan_mono cnt r r' : r <= r' -> scan cnt r <= scan cnt r'.
Proof. induction 1; cbn; lia. Qed.
Lemma scan_ext f g : (forall r, f r = g r) -> forall r, scan f r = scan g r.
Proof. intros H r. induction r; cbn; auto. Qed.
Lemma scan_disjoint cnt r r' j j' : j < cnt r -> j' < cnt r' -> scan cnt r + j = scan cnt r' + j' -> r = r' /\ j = j'.
Proof.
  intros Hj Hj' E. destruct (Nat.lt_trichotomy r r') as [H|[->|H]]; [|split; lia|].
  - apply (scan_mono cnt) in H. cbn in H. lia.
  - apply (scan_mono cnt) in H. cbn in H. lia.
Qed.

Lemma setnth_In A (l : list A) i x y : In y (setnth l i x) -> y = x \/ In y l.
Proof.
  revert i. induction l as [|a l IH]; intros i; cbn; [tauto|].
  destruct i; cbn; [intuition|]. intros [->|H]; [tauto|]. apply IH in H. tauto.
Qed.
Lemma setnth_keep A (l : list A) i x y t : nth_error l i = Some t -> In y l -> y = t \/ In y (setnth l i x).
Proof.
  revert i. induction l as [|a l IH]; intros i; cbn; [tauto|].
  destruct i; cbn.
  - intros E [->|H]; [left; congruence|tauto].
  - intros E [->|H]; [tauto|]. destruct (IH _ E H); tauto.
Qed.
Lemma setnth_new A (l : list A) i x t : nth_error l i = Some t -> In x (setnth l i x).
Proof. revert i. induction l as [|a l IH]; intros [|i]; cbn; try discriminate; [tauto|]. intros E. right. eauto. Qed.
Lemma setnth_length A (l : list A) i x : length (setnth l i x) = length l.
Proof. revert i. induction l; intros [|i]; cbn; auto. Qed.

Section CONN.
Variables (ndof : nat) (ths : list (list op)).
Let all : list op := concat ths.
Let cnt := cntOf all.
Let rm := scan cnt.
Let N := rm ndof.
Hypothesis Hrows : forall r c, In (r, c) all -> r < ndof.

Definition inRow (m : mem) (r c : nat) : Prop := exists j, j < cnt r /\ m (rm r + j) = Some c.

Definition rowInv (m : mem) (r : nat) : Prop := exists k, k <= cnt r /\
  (forall j, j < k -> exists c, m (rm r + j) = Some c /\ In (r, c) all) /\
  (forall j, k <= j < cnt r -> m (rm r + j) = None) /\
  (forall j j', j < k -> j' < k -> m (rm r + j) = m (rm r + j') -> j = j').

Definition passed (m : mem) (r c j : nat) : Prop :=
  forall j', j' < j -> exists c', m (rm r + j') = Some c' /\ c' <> c.

Definition thInv (m : mem) (t : thread) : Prop :=
  incl (todo t) all /\
  match todo t with
  | [] => True
  | (r, c) :: _ => exists j, j < cnt r /\ passed m r c j /\
      (here t = Try (rm r + j) \/ (here t = Chk (rm r + j) /\ m (rm r + j) <> None))
  end.

Definition inv (s : state) : Prop :=
  (forall r, r < ndof -> rowInv (fst s) r) /\
  (forall t, In t (snd s) -> thInv (fst s) t) /\
  (forall r c, In (r, c) all -> (exists t, In t (snd s) /\ In (r, c) (todo t)) \/ inRow (fst s) r c).

Lemma cnt_pos r c : In (r, c) all -> 0 < cnt r.
Proof.
  intros H. apply colsOf_In in H. unfold cnt. rewrite <- colsOf_length. destruct (colsOf all r); [destruct H|cbn; lia].
Qed.
Lemma inN r j : r < ndof -> j < cnt r -> rm r + j < N.
Proof. intros Hr Hj. apply (scan_mono cnt) in Hr. cbn in Hr. unfold N, rm. lia. Qed.

(** The counting argument: cells before j hold distinct columns different from
    c, so j is inside the row. *)
Lemma passed_inside m r c j : rowInv m r -> In (r, c) all -> passed m r c j -> j <= cnt r -> j < cnt r.
Proof.
  intros (k & Hk & Hcell & Hnone & Hinj) Hin Hp Hj.
  destruct (Nat.eq_dec j (cnt r)) as [E|]; [|lia]. exfalso.
  assert (Hkj : k = cnt r).
  { destruct (Nat.eq_dec k (cnt r)) as [|Hn]; [assumption|]. exfalso.
    destruct (Hp k) as (c' & Hc' & _); [lia|]. rewrite Hnone in Hc' by lia. discriminate. }
  pose (f := fun j' => match m (rm r + j') with Some c' => c' | None => 0 end).
  assert (ND : NoDup (c :: map f (seq 0 j))).
  { constructor.
    - rewrite in_map_iff. intros (j' & E' & Hj'). apply in_seq in Hj'. destruct (Hp j') as (c' & Hc' & Hne); [lia|].
      unfold f in E'. rewrite Hc' in E'. congruence.
    - assert (G : forall n s, s + n <= j -> NoDup (map f (seq s n))).
      { induction n as [|n IH]; intros s Hs; cbn [seq map]; [constructor|]. constructor; [|apply IH; lia].
        rewrite in_map_iff. intros (j' & E' & Hj'). apply in_seq in Hj'.
        destruct (Hcell s) as (c1 & H1 & _); [lia|]. destruct (Hcell j') as (c2 & H2 & _); [lia|].
        unfold f in E'. rewrite H1, H2 in E'. subst c2. assert (s = j'); [|lia]. apply Hinj; [lia|lia|congruence]. }
      apply G. lia. }
  assert (INC : incl (c :: map f (seq 0 j)) (colsOf all r)).
  { intros x [<-|Hx]; [apply colsOf_In; exact Hin|]. apply in_map_iff in Hx as (j' & E' & Hj'). apply in_seq in Hj'.
    destruct (Hcell j') as (c' & Hc' & Hc''); [lia|]. unfold f in E'. rewrite Hc' in E'. subst. apply colsOf_In. exact Hc''. }
  pose proof (NoDup_incl_length ND INC) as HL. rewrite colsOf_length in HL. fold cnt in HL.
  cbn in HL. rewrite map_length, seq_length in HL. lia.
Qed.

Lemma load_inv m l : incl l all -> thInv m (load rm l).
Proof.
  intros H. unfold load, thInv. destruct l as [|[r c] l]; cbn; [split; [exact H|exact I]|].
  split; [exact H|]. exists 0. split; [eapply cnt_pos; apply H; left; reflexivity|].
  split; [intros j' Hj'; lia|]. left. f_equal. lia.
Qed.

(** Memory grows. *)
Lemma thInv_upd m i c t : m i = None -> thInv m t -> thInv (upd m i (Some c)) t.
Proof.
  intros Hi [Hincl H]. split; [exact Hincl|]. destruct (todo t) as [|[r c0] l]; [exact I|].
  destruct H as (j & Hj & Hp & Hpc). exists j. split; [exact Hj|]. split.
  - intros j' Hj'. destruct (Hp j' Hj') as (c' & Hc' & Hn). exists c'. split; [|exact Hn].
    unfold upd. destruct (Nat.eqb_spec (rm r + j') i); [congruence|exact Hc'].
  - destruct Hpc as [->|[-> Hm]]; [left; reflexivity|right]. split; [reflexivity|].
    unfold upd. destruct (_ =? _); [discriminate|exact Hm].
Qed.
Lemma inRow_upd m i c r c0 : m i = None -> inRow m r c0 -> inRow (upd m i (Some c)) r c0.
Proof.
  intros Hi (j & Hj & Hm). exists j. split; [exact Hj|]. unfold upd. destruct (Nat.eqb_spec (rm r + j) i); congruence.
Qed.

Lemma rowInv_upd m r c j : (forall r', r' < ndof -> rowInv m r') -> r < ndof -> j < cnt r -> In (r, c) all ->
  passed m r c j -> m (rm r + j) = None -> forall r', r' < ndof -> rowInv (upd m (rm r + j) (Some c)) r'.
Proof.
  intros HR Hr Hj Hin Hp Hm r' Hr'. destruct (HR r' Hr') as (k & Hk & Hcell & Hnone & Hinj).
  destruct (Nat.eq_dec r r') as [<-|Hne].
  - assert (Ek : j = k).
    { destruct (Nat.lt_trichotomy j k) as [H|[H|H]]; [|exact H|].
      - destruct (Hcell j H) as (c' & Hc' & _). congruence.
      - destruct (Hp k H) as (c' & Hc' & _). rewrite Hnone in Hc' by lia. discriminate. }
    subst k. exists (S j). split; [lia|].
    assert (U1 : upd m (rm r + j) (Some c) (rm r + j) = Some c) by (unfold upd; rewrite Nat.eqb_refl; reflexivity).
    assert (U2 : forall j', j' <> j -> upd m (rm r + j) (Some c) (rm r + j') = m (rm r + j')).
    { intros j' Hj'. unfold upd. destruct (Nat.eqb_spec (rm r + j') (rm r + j)); [lia|reflexivity]. }
    split; [|split].
    + intros j' Hj'. destruct (Nat.eq_dec j' j) as [->|Hn]; [eauto|]. rewrite U2 by exact Hn. apply Hcell; lia.
    + intros j' Hj'. rewrite U2 by lia. apply Hnone; lia.
    + intros a b Ha Hb. destruct (Nat.eq_dec a j) as [->|Hna], (Nat.eq_dec b j) as [->|Hnb]; try reflexivity.
      * rewrite U1, (U2 b Hnb). intros E. destruct (Hp b) as (c' & Hc' & Hn); [lia|]. congruence.
      * rewrite U1, (U2 a Hna). intros E. destruct (Hp a) as (c' & Hc' & Hn); [lia|]. congruence.
      * rewrite (U2 a Hna), (U2 b Hnb). apply Hinj; lia.
  - assert (U2 : forall j', j' < cnt r' -> upd m (rm r + j) (Some c) (rm r' + j') = m (rm r' + j')).
    { intros j' Hj'. unfold upd. destruct (Nat.eqb_spec (rm r' + j') (rm r + j)) as [E|]; [|reflexivity].
      destruct (scan_disjoint cnt r' r Hj' Hj E). congruence. }
    exists k. split; [exact Hk|]. split; [|split].
    + intros j' Hj'. rewrite U2 by lia. apply Hcell; lia.
    + intros j' Hj'. rewrite U2 by lia. apply Hnone; lia.
    + intros a b Ha Hb. rewrite !U2 by lia. apply Hinj; lia.
Qed.

Lemma step_inv s i : inv s -> exists s', step N rm s i = Some s' /\ inv s'.
Proof.
  intros (HR & HT & HC). unfold step. destruct (nth_error (snd s) i) as [t|] eqn:Ei.
  2:{ exists s. split; [reflexivity|]. split; [|split]; assumption. }
  pose proof (HT t (nth_error_In _ _ Ei)) as Ht. unfold tstep.
  destruct t as [td h]. cbn [todo here] in *. destruct td as [|[r c] rest].
  { exists (fst s, setnth (snd s) i (Th [] h)). split; [reflexivity|].
    split; [exact HR|]. split; cbn [fst snd].
    - intros t H. apply setnth_In in H as [->|H]; [apply Ht|apply HT; exact H].
    - intros r c Hin. destruct (HC r c Hin) as [(t & Ht1 & Ht2)|]; [|tauto].
      destruct (setnth_keep (snd s) i (Th [] h) t Ei Ht1) as [->|]; [destruct Ht2|]. left. eauto. }
  destruct Ht as [Hincl (j & Hj & Hp & Hpc)]. cbn [todo here] in *.
  assert (Hin : In (r, c) all) by (apply Hincl; left; reflexivity).
  assert (Hr : r < ndof) by (eapply Hrows; eauto).
  assert (Hrest : incl rest all) by (intros x Hx; apply Hincl; right; exact Hx).
  assert (HN : (rm r + j <? N) = true) by (apply Nat.ltb_lt, inN; assumption).
  destruct Hpc as [->|[-> Hm]]; rewrite HN.
  - destruct (fst s (rm r + j)) as [c0|] eqn:Em.
    + eexists. split; [reflexivity|]. split; [exact HR|]. split; cbn [fst snd].
      * intros t Ht'. apply setnth_In in Ht' as [->|Ht']; [|apply HT; exact Ht'].
        split; [exact Hincl|]. cbn. exists j. repeat split; auto. right. split; [reflexivity|congruence].
      * intros r' c' Hin'. destruct (HC r' c' Hin') as [(t & Ht1 & Ht2)|]; [|tauto]. left.
        destruct (setnth_keep (snd s) i (Th ((r, c) :: rest) (Chk (rm r + j))) t Ei Ht1) as [->|Hk].
        -- eexists. split; [eapply setnth_new; eauto|]. exact Ht2.
        -- eauto.
    + eexists. split; [reflexivity|]. split; [|split]; cbn [fst snd].
      * apply rowInv_upd; auto.
      * intros t Ht'. apply setnth_In in Ht' as [->|Ht']; [apply load_inv; exact Hrest|].
        apply thInv_upd; [exact Em|apply HT; exact Ht'].
      * intros r' c' Hin'. destruct (HC r' c' Hin') as [(t & Ht1 & Ht2)|Hrow]; [|right; apply inRow_upd; assumption].
        destruct (setnth_keep (snd s) i (load rm rest) t Ei Ht1) as [->|Hk].
        -- cbn [todo] in Ht2. destruct Ht2 as [E|Ht2].
           ++ inversion E; subst. right. exists j. split; [exact Hj|]. unfold upd. rewrite Nat.eqb_refl. reflexivity.
           ++ left. exists (load rm rest). split; [eapply setnth_new; eauto|].
              unfold load. destruct rest as [|[r1 c1] rest]; [destruct Ht2|exact Ht2].
        -- left. eauto.
  - destruct (fst s (rm r + j)) as [c0|] eqn:Em; [|congruence].
    destruct (Nat.eqb_spec c0 c) as [->|Hne].
    + eexists. split; [reflexivity|]. split; [exact HR|]. split; cbn [fst snd].
      * intros t Ht'. apply setnth_In in Ht' as [->|Ht']; [apply load_inv; exact Hrest|apply HT; exact Ht'].
      * intros r' c' Hin'. destruct (HC r' c' Hin') as [(t & Ht1 & Ht2)|]; [|tauto].
        destruct (setnth_keep (snd s) i (load rm rest) t Ei Ht1) as [->|Hk].
        -- cbn [todo] in Ht2. destruct Ht2 as [E|Ht2].
           ++ inversion E; subst. right. exists j. split; [exact Hj|exact Em].
           ++ left. exists (load rm rest). split; [eapply setnth_new; eauto|].
              unfold load. destruct rest as [|[r1 c1] rest]; [destruct Ht2|exact Ht2].
        -- left. eauto.
    + eexists. split; [reflexivity|]. split; [exact HR|]. split; cbn [fst snd].
      * intros t Ht'. apply setnth_In in Ht' as [->|Ht']; [|apply HT; exact Ht'].
        split; [exact Hincl|]. cbn. exists (S j).
        assert (Hp' : passed (fst s) r c (S j)).
        { intros j' Hj'. destruct (Nat.eq_dec j' j) as [->|]; [eauto|]. apply Hp. lia. }
        split; [eapply passed_inside; eauto; apply HR; exact Hr|]. split; [exact Hp'|]. left. f_equal. lia.
      * intros r' c' Hin'. destruct (HC r' c' Hin') as [(t & Ht1 & Ht2)|]; [|tauto]. left.
        destruct (setnth_keep (snd s) i (Th ((r, c) :: rest) (Try (S (rm r + j)))) t Ei Ht1) as [->|Hk].
        -- eexists. split; [eapply setnth_new; eauto|]. exact Ht2.
        -- eauto.
Qed.

Lemma init_inv : inv (init rm ths).
Proof.
  split; [|split]; cbn [fst snd init].
  - intros r _. exists 0. split; [lia|]. split; [intros; lia|]. split; [reflexivity|intros; lia].
  - intros t Ht. apply in_map_iff in Ht as (l & <- & Hl). apply load_inv.
    intros x Hx. unfold all. apply in_concat. eauto.
  - intros r c Hin. left. apply in_concat in Hin as (l & Hl & Hx). exists (load rm l). split; [apply in_map; exact Hl|].
    unfold load. destruct l as [|[r1 c1] l]; [destruct Hx|exact Hx].
Qed.

Lemma run_inv sched s : inv s -> exists s', run N rm s sched = Some s' /\ inv s'.
Proof.
  revert s. induction sched as [|i sched IH]; intros s H; cbn; [eauto|].
  destruct (step_inv i H) as (s' & -> & H'). apply IH. exact H'.
Qed.

Lemma cut_prefix (l : list (option nat)) k : k <= length l ->
  (forall j, j < k -> nth j l None <> None) -> (k < length l -> nth k l None = None) ->
  length (cut l) = k /\ forall j, j < k -> nth j l None = Some (nth j (cut l) 0).
Proof.
  revert k. induction l as [|o l IH]; intros k Hk H1 H2; cbn in *.
  - assert (k = 0) as -> by lia. split; [reflexivity|]. intros; lia.
  - destruct o as [c|].
    + destruct k as [|k]; [specialize (H2 ltac:(lia)); discriminate|].
      destruct (IH k) as [E F]; [lia|intros j Hj; apply (H1 (S j)); lia|intros Hk'; apply H2; lia|].
      split; [cbn; lia|]. intros [|j] Hj; [reflexivity|]. apply F. lia.
    + destruct k as [|k]; [split; [reflexivity|intros; lia]|]. specialize (H1 0 ltac:(lia)). congruence.
Qed.

Lemma row_final s : inv s -> finished s -> forall r, r < ndof ->
  NoDup (rowOf rm (fst s) r) /\ forall c, In c (rowOf rm (fst s) r) <-> In (r, c) all.
Proof.
  intros (HR & _ & HC) Hfin r Hr. destruct (HR r Hr) as (k & Hk & Hcell & Hnone & Hinj).
  unfold rowOf. replace (rm (S r) - rm r) with (cnt r) by (cbn; lia).
  set (l := map (fst s) (seq (rm r) (cnt r))).
  assert (Ll : length l = cnt r) by (unfold l; rewrite map_length, seq_length; reflexivity).
  assert (Nl : forall j, j < cnt r -> nth j l None = fst s (rm r + j)).
  { intros j Hj. unfold l. rewrite (nth_indep _ None (fst s 0)) by (rewrite map_length, seq_length; exact Hj).
    rewrite map_nth, seq_nth by exact Hj. reflexivity. }
  destruct (cut_prefix l (k := k)) as [Lc Nc].
  - lia.
  - intros j Hj. rewrite Nl by lia. destruct (Hcell j Hj) as (c & -> & _). discriminate.
  - intros Hkl. rewrite Nl by lia. apply Hnone. lia.
  - split.
    + apply (NoDup_nth _ 0). intros a b Ha Hb E. rewrite Lc in *. apply Hinj; try assumption.
      rewrite <- !Nl, !Nc by lia. congruence.
    + intros c. split.
      * intros H. apply (In_nth _ _ 0) in H as (j & Hj & E). rewrite Lc in Hj.
        destruct (Hcell j Hj) as (c' & Hc' & Hin). rewrite <- Nl, Nc in Hc' by lia. congruence.
      * intros H. destruct (HC r c H) as [(t & Ht & Hx)|(j & Hj & Hm)]; [rewrite (Hfin t Ht) in Hx; destruct Hx|].
        assert (Hjk : j < k).
        { destruct (Nat.lt_ge_cases j k); [assumption|]. rewrite Hnone in Hm by lia. discriminate. }
        rewrite <- Nl, (Nc j Hjk) in Hm by lia. injection Hm as <-. apply nth_In. lia.
Qed.

(** ** Termination: each effective step lowers a measure. *)
Definition opWork (o : op) : nat := 2 * cnt (fst o).
Definition listWork (l : list op) : nat := list_sum (map opWork l).
Definition thWork (t : thread) : nat :=
  match todo t with
  | [] => 0
  | (r, _) :: rest => listWork rest +
      match here t with Try id => 2 * (cnt r - (id - rm r)) | Chk id => 2 * (cnt r - (id - rm r)) - 1 end
  end.
Fixpoint work (ts : list thread) : nat := match ts with [] => 0 | t :: l => thWork t + work l end.

Lemma load_work l : thWork (load rm l) = listWork l.
Proof.
  destruct l as [|[r c] l]; [reflexivity|]. unfold load, thWork. cbn [todo here].
  rewrite Nat.sub_diag. change (listWork ((r, c) :: l)) with (opWork (r, c) + listWork l). unfold opWork. cbn [fst]. lia.
Qed.

Lemma work_setnth ts i t t' : nth_error ts i = Some t -> thWork t' < thWork t -> work (setnth ts i t') < work ts.
Proof.
  revert i. induction ts as [|a ts IH]; intros [|i]; cbn; try discriminate.
  - intros [= ->] H. lia.
  - intros E H. specialize (IH _ E H). lia.
Qed.

Lemma step_work s i t s' : inv s -> nth_error (snd s) i = Some t -> todo t <> [] ->
  step N rm s i = Some s' -> work (snd s') < work (snd s).
Proof.
  intros (HR & HT & HC) Ei Hne. unfold step. rewrite Ei. unfold tstep.
  pose proof (HT t (nth_error_In _ _ Ei)) as [Hincl Ht].
  destruct (todo t) as [|[r c] rest] eqn:Et; [congruence|]. destruct Ht as (j & Hj & Hp & Hpc).
  assert (W : thWork t = listWork rest + match here t with Try id => 2 * (cnt r - (id - rm r)) | Chk id => 2 * (cnt r - (id - rm r)) - 1 end)
    by (unfold thWork; rewrite Et; reflexivity).
  destruct Hpc as [E|[E Hm]]; rewrite E in *; (destruct (_ <? N); [|discriminate]);
  destruct (fst s (rm r + j)) as [c0|] eqn:Em; try congruence.
  - intros [= <-]. cbn [snd]. eapply work_setnth; [exact Ei|]. rewrite W. unfold thWork. cbn [todo here]. lia.
  - intros [= <-]. cbn [snd]. eapply work_setnth; [exact Ei|]. rewrite W, load_work. lia.
  - destruct (c0 =? c); intros [= <-]; cbn [snd]; (eapply work_setnth; [exact Ei|]); rewrite W.
    + rewrite load_work. lia.
    + unfold thWork. cbn [todo here]. lia.
Qed.

(** Number of steps made by threads that still have something to do. *)
Definition busy (s : state) (i : nat) : bool :=
  match nth_error (snd s) i with Some (Th (_ :: _) _) => true | _ => false end.
Fixpoint effective (s : state) (sched : list nat) : nat :=
  match sched with
  | [] => 0
  | i :: l => (if busy s i then 1 else 0) + match step N rm s i with Some s' => effective s' l | None => 0 end
  end.

Lemma idle_step s i : busy s i = false -> exists s', step N rm s i = Some s' /\ work (snd s') = work (snd s).
Proof.
  unfold busy, step. destruct (nth_error (snd s) i) as [[[|o td] h]|] eqn:E; try discriminate; intros _.
  - cbn. eexists. split; [reflexivity|]. cbn. clear -E. revert i E. induction (snd s) as [|a l IH]; intros [|i]; cbn; try discriminate.
    + intros [= ->]. reflexivity.
    + intros E. cbn. rewrite (IH _ E). reflexivity.
  - eauto.
Qed.

Lemma effective_bound s sched : inv s -> effective s sched <= work (snd s).
Proof.
  revert s. induction sched as [|i sched IH]; intros s Hs; cbn; [lia|].
  destruct (step_inv i Hs) as (s' & E & Hs'). rewrite E. specialize (IH s' Hs').
  destruct (busy s i) eqn:B.
  - assert (work (snd s') < work (snd s)); [|lia].
    unfold busy in B. destruct (nth_error (snd s) i) as [t|] eqn:Ei; [|discriminate].
    eapply step_work; eauto. destruct t as [[|o td] h]; [discriminate|]. discriminate.
  - destruct (idle_step s i B) as (s2 & E2 & W). rewrite E in E2. injection E2 as <-. lia.
Qed.

End CONN.
