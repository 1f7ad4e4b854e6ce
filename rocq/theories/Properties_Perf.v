(** C34: performance statistics; C35: timers. *)
From Verif Require Import PerfModel.
Open Scope R_scope.

(** ** C34: names *)
Definition nonNul (n : name) : Prop := Forall (fun ch => ch <> 0%nat) n.
Lemma unmarshal_name n cur buf : nonNul n -> unmarshal cur (n ++ [0%nat] ++ buf) = option_map (cons (cur ++ n)) (unmarshal [] buf).
Proof.
  revert cur. induction n as [|ch n IH]; intros cur H.
  - cbn [app unmarshal]. rewrite app_nil_r. reflexivity.
  - inversion H; subst. cbn [app unmarshal]. destruct ch as [|ch]; [congruence|]. cbn [app] in IH. rewrite IH by auto.
    rewrite <- app_assoc. reflexivity.
Qed.
Lemma unmarshal_marshal names : Forall nonNul names -> unmarshal [] (marshal names) = Some names.
Proof.
  induction 1 as [|n names Hn _ IH]; [reflexivity|]. unfold marshal in *. cbn [flat_map]. rewrite <- app_assoc.
  rewrite unmarshal_name by auto. rewrite IH. reflexivity.
Qed.
Lemma marshal_flat procs : concat (map (fun p => marshal (pnames p)) procs) = marshal (flat_map pnames procs).
Proof.
  induction procs as [|p procs IH]; [reflexivity|]. cbn [map concat flat_map]. rewrite IH. unfold marshal. rewrite flat_map_app. reflexivity.
Qed.
Lemma splice_next (done piece : list nat) k : (length piece <= k)%nat ->
  splice (done ++ repeat 0%nat k) (length done) piece = (done ++ piece) ++ repeat 0%nat (k - length piece).
Proof.
  intros H. unfold splice. rewrite firstn_app, firstn_all, Nat.sub_diag. cbn [firstn]. rewrite app_nil_r.
  rewrite skipn_app. rewrite skipn_all2 by lia. cbn [app]. rewrite <- app_assoc. f_equal. f_equal.
  replace (length done + length piece - length done)%nat with (length piece) by lia.
  clear done. revert k H. induction piece as [|x piece IH]; intros k H; [cbn; f_equal; lia|].
  cbn [length] in *. destruct k as [|k]; [lia|]. cbn [repeat skipn Nat.sub]. apply IH. lia.
Qed.
Lemma gatherv_from pieces : forall done,
  fold_left (fun buf dp => splice buf (fst dp) (snd dp)) (combine (displs (length done) (map (@length nat) pieces)) pieces)
    (done ++ repeat 0%nat (list_sum (map (@length nat) pieces))) = done ++ concat pieces.
Proof.
  induction pieces as [|p pieces IH]; intros done; [reflexivity|].
  cbn [map displs combine fold_left fst snd concat list_sum fold_right]. fold (list_sum (map (@length nat) pieces)).
  rewrite splice_next by lia. replace (length p + list_sum (map (length (A:=nat)) pieces) - length p)%nat with (list_sum (map (length (A:=nat)) pieces)) by lia.
  specialize (IH (done ++ p)). rewrite app_length in IH. rewrite IH. rewrite <- app_assoc. reflexivity.
Qed.
Lemma gatherv_concat pieces : gatherv (list_sum (map (@length nat) pieces)) pieces = concat pieces.
Proof. apply (gatherv_from pieces []). Qed.
Lemma insertAll_spec l : forall stats, NoDup stats -> NoDup (insertAll stats l) /\ forall n, In n (insertAll stats l) <-> In n stats \/ In n l.
Proof.
  induction l as [|x l IH]; intros stats Hs; cbn [insertAll]; [split; [auto|intros n; cbn; tauto]|].
  destruct (in_dec name_dec x stats) as [Hi|Hi].
  - destruct (IH stats Hs) as [H1 H2]. split; auto. intros n. rewrite H2. cbn [In]. split; [tauto|]. intros [?|[->|?]]; auto.
  - assert (Hs' : NoDup (stats ++ [x])).
    { assert (A := Add_app x stats []). rewrite app_nil_r in A. apply (NoDup_Add A). auto. }
    destruct (IH _ Hs') as [H1 H2]. split; auto. intros n. rewrite H2, in_app_iff. cbn [In]. tauto.
Qed.
(** The names under which statistics are collected are those of all processes, each once. *)
Theorem c34_names procs : (forall p n, In p procs -> In n (pnames p) -> nonNul n) ->
  exists l, allNames procs = Some l /\ NoDup l /\ forall n, In n l <-> exists p, In p procs /\ In n (pnames p).
Proof.
  intros H. unfold allNames. cbv zeta. rewrite gatherv_concat, marshal_flat, unmarshal_marshal.
  - cbn [option_map]. eexists. split; [reflexivity|]. destruct (insertAll_spec (flat_map pnames procs) [] (NoDup_nil _)) as [H1 H2].
    split; auto. intros n. rewrite H2, in_flat_map. cbn [In]. split; [intros [[]|?]; auto|auto].
  - apply Forall_forall. intros n Hn. apply in_flat_map in Hn. destruct Hn as [p [? ?]]. eauto.
Qed.

(** ** C34: statistics *)
(** The spec: the values of the processes which own the object, in rank order. *)
Inductive owned (own : process -> name -> R -> Prop) (n : name) : list process -> list R -> Prop :=
| owned_nil : owned own n [] []
| owned_has p v ps vs : own p n v -> owned own n ps vs -> owned own n (p :: ps) (v :: vs)
| owned_not p ps vs : (forall v, ~ own p n v) -> owned own n ps vs -> owned own n (p :: ps) vs.
Record describes (vs : list R) (s : statistics) : Prop := {
  d_count : processCount s = length vs;
  d_min : In (smin s) vs /\ forall v, In v vs -> smin s <= v;
  d_max : In (smax s) vs /\ forall v, In v vs -> v <= smax s;
  d_avg : average s * INR (length vs) = Rsum vs (fun v => v);
  d_dev : 0 <= stdev s /\ stdev s * stdev s * INR (length vs) = Rsum vs (fun v => (v - average s) * (v - average s)) }.

Lemma fold_min l : forall x, (In (fold_left Rmin l x) (x :: l)) /\ forall y, In y (x :: l) -> fold_left Rmin l x <= y.
Proof.
  induction l as [|a l IH]; intros x; cbn [fold_left]; [split; [left; auto|intros y [<-|[]]; lra]|].
  destruct (IH (Rmin x a)) as [H1 H2]. split.
  - destruct H1 as [E|H1]; [|right; right; auto]. rewrite <- E. unfold Rmin. destruct (Rle_dec x a); [left|right; left]; auto.
  - pose proof (H2 _ (or_introl eq_refl)) as H3. pose proof (Rmin_l x a). pose proof (Rmin_r x a).
    intros y [<-|[<-|Hy]]; [lra|lra|]. apply H2. right. auto.
Qed.
Lemma fold_max l : forall x, (In (fold_left Rmax l x) (x :: l)) /\ forall y, In y (x :: l) -> y <= fold_left Rmax l x.
Proof.
  induction l as [|a l IH]; intros x; cbn [fold_left]; [split; [left; auto|intros y [<-|[]]; lra]|].
  destruct (IH (Rmax x a)) as [H1 H2]. split.
  - destruct H1 as [E|H1]; [|right; right; auto]. rewrite <- E. unfold Rmax. destruct (Rle_dec x a); [right; left|left]; auto.
  - pose proof (H2 _ (or_introl eq_refl)) as H3. pose proof (Rmax_l x a). pose proof (Rmax_r x a).
    intros y [<-|[<-|Hy]]; [lra|lra|]. apply H2. right. auto.
Qed.
Lemma fold_plus l : forall x, fold_left Rplus l x = x + Rsum l (fun v => v).
Proof. induction l as [|a l IH]; intros x; cbn [fold_left Rsum]; [lra|]. rewrite IH. lra. Qed.
Lemma reduce_plus l : reduce Rplus l = Rsum l (fun v => v).
Proof. destruct l as [|x l]; [reflexivity|]. cbn [reduce Rsum]. apply fold_plus. Qed.
Lemma reduce_min l : l <> [] -> In (reduce Rmin l) l /\ forall y, In y l -> reduce Rmin l <= y.
Proof. destruct l; [congruence|]. intros _. apply fold_min. Qed.
Lemma reduce_max l : l <> [] -> In (reduce Rmax l) l /\ forall y, In y l -> y <= reduce Rmax l.
Proof. destruct l; [congruence|]. intros _. apply fold_max. Qed.

Definition values (procs : list process) (n : name) : list R := flat_map (fun p => match plookup p n with Some v => [v] | None => [] end) procs.
Lemma owned_values own n procs vs : (forall p v, In p procs -> plookup p n = Some v <-> own p n v) -> owned own n procs vs -> vs = values procs n.
Proof.
  intros H. induction 1 as [|p v ps vs Ho _ IH|p ps vs Hn _ IH]; [reflexivity| |]; unfold values in *; cbn [flat_map].
  - apply H in Ho; [|left; auto]. rewrite Ho. cbn [app]. f_equal. apply IH. intros; apply H; right; auto.
  - destruct (plookup p n) as [v|] eqn:E; [apply H in E; [|left; auto]; apply Hn in E; destruct E|]. cbn [app]. apply IH. intros; apply H; right; auto.
Qed.
Lemma variance vs (k m : R) : k = INR (length vs) -> k <> 0 -> m * k = Rsum vs (fun v => v) ->
  Rsum vs (fun v => v * v) / k - m * m = Rsum vs (fun v => (v - m) * (v - m)) / k.
Proof.
  intros Hk H0 Hm. assert (E : Rsum vs (fun v => (v - m) * (v - m)) = Rsum vs (fun v => v * v) - 2 * m * Rsum vs (fun v => v) + k * (m * m)).
  { rewrite Hk. rewrite <- (Rsum_const vs (m * m)). rewrite <- Rsum_scal, <- Rsum_minus, <- Rsum_plus. apply Rsum_ext. intros; ring. }
  rewrite E, <- Hm. field. auto.
Qed.
Lemma aggregate_values MaxValue procs n : values procs n <> [] -> (forall v, In v (values procs n) -> 0 <= v <= MaxValue) ->
  describes (values procs n) (aggregate MaxValue procs n).
Proof.
  intros Hne Hb. set (vs := values procs n) in *. unfold aggregate. cbv zeta.
  set (vals := map (fun p => plookup p n) procs).
  assert (Hvals : vals <> []). { intros E. apply map_eq_nil in E. unfold vs in Hne. rewrite E in Hne. apply Hne. reflexivity. }
  assert (Ev : forall d v, In v (map (orElse d) vals) -> In v vs \/ v = d).
  { intros d v Hv. unfold vals in Hv. rewrite map_map in Hv. apply in_map_iff in Hv. destruct Hv as [p [E Hp]].
    destruct (plookup p n) as [w|] eqn:El; cbn in E; [left|right; auto]. subst w. unfold vs, values. apply in_flat_map. exists p. rewrite El. cbn. auto. }
  assert (Ev' : forall d v, In v vs -> In v (map (orElse d) vals)).
  { intros d v Hv. unfold vs, values in Hv. apply in_flat_map in Hv. destruct Hv as [p [Hp E]]. destruct (plookup p n) as [w|] eqn:El; [|destruct E].
    destruct E as [<-|[]]. unfold vals. rewrite map_map. apply in_map_iff. exists p. rewrite El. auto. }
  assert (Ec : list_sum (map (fun o : option R => match o with Some _ => 1%nat | None => 0%nat end) vals) = length vs).
  { unfold vals, vs, values. clear. induction procs as [|p procs IH]; [reflexivity|]. cbn [map flat_map list_sum fold_right].
    rewrite app_length. unfold list_sum in IH. rewrite IH. destruct (plookup p n); reflexivity. }
  assert (Es : forall f, f 0 = 0 -> reduce Rplus (map (fun o => f (orElse MinValue o)) vals) = Rsum vs f).
  { intros f Hf. rewrite reduce_plus. unfold vals, vs, values. clear -Hf. induction procs as [|p procs IH]; [reflexivity|]. cbn [map flat_map Rsum].
    rewrite IH, Rsum_app. destruct (plookup p n); cbn [orElse Rsum]; [ring|]. unfold MinValue. cbv beta. rewrite Hf. lra. }
  assert (Es1 : reduce Rplus (map (orElse MinValue) vals) = Rsum vs (fun v => v)).
  { rewrite <- (Es (fun v => v)) by auto. f_equal. }
  assert (Es2 := Es (fun v => v * v) (Rmult_0_l 0)). cbv beta in Es2.
  assert (Hk : INR (length vs) <> 0). { apply not_0_INR. destruct vs; [congruence|discriminate]. }
  assert (Hm : forall d, map (orElse d) vals <> []). { intros d E. apply map_eq_nil in E. auto. }
  rewrite Ec, Es1, Es2. set (k := INR (length vs)) in *. set (avg := Rsum vs (fun v => v) / k).
  assert (Ha : avg * k = Rsum vs (fun v => v)). { unfold avg. field. auto. }
  assert (Hv := variance vs k avg eq_refl Hk Ha).
  assert (Hnn : 0 <= Rsum vs (fun v => v * v) / k - avg * avg).
  { rewrite Hv. apply Rmult_le_pos; [apply Rsum_nonneg; intros; apply Rle_0_sqr|]. left. apply Rinv_0_lt_compat. unfold k. pose proof (pos_INR (length vs)). unfold k in Hk. lra. }
  constructor; cbn [processCount smin smax average stdev]; auto.
  - destruct (reduce_min _ (Hm MaxValue)) as [H1 H2]. split; [|intros v Hvv; apply H2; apply Ev'; auto].
    destruct (Ev _ _ H1) as [|E]; auto. destruct vs as [|v r] eqn:Evs; [congruence|].
    assert (reduce Rmin (map (orElse MaxValue) vals) <= v) by (apply H2, Ev'; left; auto). pose proof (Hb v (or_introl eq_refl)).
    left. lra.
  - destruct (reduce_max _ (Hm MinValue)) as [H1 H2]. split; [|intros v Hvv; apply H2; apply Ev'; auto].
    destruct (Ev _ _ H1) as [|E]; auto. unfold MinValue in *. destruct vs as [|v r] eqn:Evs; [congruence|].
    assert (v <= reduce Rmax (map (orElse 0) vals)) by (apply H2, Ev'; left; auto). pose proof (Hb v (or_introl eq_refl)).
    left. lra.
  - split; [apply sqrt_pos|]. fold k. rewrite sqrt_sqrt by auto. rewrite Hv. field. auto.
Qed.
(** The whole: for processes whose look-up answers according to [own]. *)
Lemma statistics_general own MaxValue procs :
  (forall p n, In p procs -> In n (pnames p) -> nonNul n) ->
  (forall p n, In p procs -> In n (pnames p) <-> exists v, own p n v) ->
  (forall p n v, In p procs -> (exists q, In q procs /\ In n (pnames q)) -> plookup p n = Some v <-> own p n v) ->
  (forall p n v, In p procs -> own p n v -> 0 <= v <= MaxValue) ->
  exists l, aggregateStatistics MaxValue procs = Some l /\ NoDup (map fst l) /\
    (forall n, In n (map fst l) <-> exists p v, In p procs /\ own p n v) /\
    forall n s vs, In (n, s) l -> owned own n procs vs -> describes vs s.
Proof.
  intros Hnul Hnames Hlook Hb. destruct (c34_names procs Hnul) as [l [E [Hnd Hin]]].
  unfold aggregateStatistics. rewrite E. cbn [option_map]. eexists. split; [reflexivity|]. rewrite map_map. cbn [fst]. rewrite map_id.
  split; auto. split.
  - intros n. rewrite Hin. split; intros [p H].
    + destruct H as [Hp Hn]. apply Hnames in Hn; auto. destruct Hn as [v Hv]. eauto.
    + destruct H as [v [Hp Hv]]. exists p. split; auto. apply Hnames; eauto.
  - intros n s vs Hns Ho. apply in_map_iff in Hns. destruct Hns as [m [Em Hl]]. injection Em as -> <-.
    assert (Hq := proj1 (Hin n) Hl).
    rewrite (owned_values own n procs vs (fun p v Hp => Hlook p n v Hp Hq) Ho). apply aggregate_values.
    + destruct Hq as [p [Hp Hn]]. assert (Hn' := Hn). apply Hnames in Hn; auto. destruct Hn as [v Hv]. apply Hlook in Hv; eauto. unfold values.
      intros En. assert (Hi : In v (flat_map (fun p => match plookup p n with Some v => [v] | None => [] end) procs)).
      { apply in_flat_map. exists p. rewrite Hv. cbn. auto. } rewrite En in Hi. destruct Hi.
    + intros v Hv. unfold values in Hv. apply in_flat_map in Hv. destruct Hv as [p [Hp Hv]]. destruct (plookup p n) as [w|] eqn:El; [|destruct Hv].
      destruct Hv as [<-|[]]. apply (Hb p n w Hp). apply Hlook; eauto.
Qed.

(** Timers and event counters: maps from names to values. *)
Definition isMap {A} (objs : list (name * A)) : Prop := NoDup (map fst objs).
Lemma find_in objs n v : isMap objs -> find objs n = Some v <-> In (n, v) objs.
Proof.
  unfold isMap. induction objs as [|[m w] r IH]; cbn [find map fst]; intros Hn; [split; [discriminate|intros []]|].
  inversion Hn; subst. destruct (name_dec m n) as [->|Hne].
  - split; [intros E; injection E as ->; left; auto|]. intros [E|Hr]; [injection E as ->; auto|]. exfalso. apply H1. apply in_map_iff. exists (n, v). auto.
  - rewrite IH by auto. split; [right; auto|]. intros [E|?]; [injection E; congruence|auto].
Qed.
Theorem c34_statistics MaxValue (maps : list (list (name * R))) :
  (forall m, In m maps -> isMap m) -> (forall m n v, In m maps -> In (n, v) m -> nonNul n /\ 0 <= v <= MaxValue) ->
  exists l, aggregateStatistics MaxValue (map plain maps) = Some l /\ NoDup (map fst l) /\
    (forall n, In n (map fst l) <-> exists m v, In m maps /\ In (n, v) m) /\
    forall n s vs, In (n, s) l -> owned (fun p n v => exists m, In m maps /\ p = plain m /\ In (n, v) m) n (map plain maps) vs -> describes vs s.
Proof.
  intros Hm Hb. set (own := fun p n v => exists m, In m maps /\ p = plain m /\ In (n, v) m).
  destruct (statistics_general own MaxValue (map plain maps)) as [l [E [H1 [H2 H3]]]].
  - intros p n Hp Hn. apply in_map_iff in Hp. destruct Hp as [m [<- Hp]]. cbn [plain pnames] in Hn. apply in_map_iff in Hn. destruct Hn as [[n' v] [<- Hn]]. eapply Hb; eauto.
  - intros p n Hp. apply in_map_iff in Hp. destruct Hp as [m [<- Hp]]. cbn [plain pnames]. split.
    + intros Hn. apply in_map_iff in Hn. destruct Hn as [[n' v] [<- Hn]]. exists v, m. auto.
    + intros [v [m' [_ [E Hv]]]]. assert (E' := f_equal pnames E). cbn [plain pnames] in E'. rewrite E'. apply in_map_iff. exists (n, v). auto.
  - intros p n v Hp _. apply in_map_iff in Hp. destruct Hp as [m [<- Hp]]. split.
    + cbn [plain plookup]. intros Hf. apply find_in in Hf; auto. exists m. auto.
    + intros [m' [Hm' [-> Hv]]]. cbn [plain plookup]. apply find_in; auto.
  - intros p n v Hp [m [Hm' [_ Hv]]]. eapply Hb; eauto.
  - exists l. split; auto. split; auto. split; auto. intros n. rewrite H2. split.
    + intros [p [v [_ [m [? [_ ?]]]]]]. eauto.
    + intros [m [v [? ?]]]. exists (plain m), v. split; [apply in_map; auto|]. exists m. auto.
Qed.
Definition nA : name := [97]%nat.
Definition nB : name := [98; 99]%nat.
Definition mapsEx : list (list (name * R)) := [[(nA, 3); (nB, 5)]; [(nB, 1)]; []].
Example c34_ok : (forall m, In m mapsEx -> isMap m) /\ (forall m n v, In m mapsEx -> In (n, v) m -> nonNul n /\ 0 <= v <= 10) /\
  owned (fun p n v => exists m, In m mapsEx /\ p = plain m /\ In (n, v) m) nB (map plain mapsEx) [5; 1].
Proof.
  split; [|split].
  - intros m [<-|[<-|[<-|[]]]]; unfold isMap; cbn [map fst]; repeat constructor; cbn; intuition discriminate.
  - intros m n v [<-|[<-|[<-|[]]]]; cbn; intros H; repeat (destruct H as [H|H]; [injection H as <- <-; split; [repeat constructor; discriminate|lra]|]); destruct H.
  - cbn [map mapsEx]. apply owned_has; [eexists; split; [left; reflexivity|]; split; [reflexivity|right; left; reflexivity]|].
    apply owned_has; [eexists; split; [right; left; reflexivity|]; split; [reflexivity|left; reflexivity]|].
    apply owned_not; [|apply owned_nil]. intros v [m [_ [E Hv]]]. assert (E' := f_equal pnames E). cbn in E'. destruct m; [destruct Hv|discriminate].
Qed.
(** A timer whose value is negative (the system clock was set back, see C35): the maximum
    reported is the 0 of the processes which do not know it. *)
Theorem c34_negative_refuted MaxValue n v : v < 0 <= MaxValue ->
  let maps := [[(n, v)]; []] in
  smax (aggregate MaxValue (map plain maps) n) = 0 /\ values (map plain maps) n = [v].
Proof.
  intros [Hv _]. cbv zeta. unfold aggregate, values. cbn [map plain plookup find flat_map]. destruct (name_dec n n) as [_|]; [|congruence].
  cbn [map orElse reduce fold_left smax app]. split; auto. unfold MinValue. apply Rmax_right. left. exact Hv.
Qed.

(** Hardware counters: sets of counters. *)
Lemma splitLast_none ct : ~ In colon ct -> splitLast ct = None.
Proof.
  induction ct as [|ch r IH]; cbn [splitLast]; intros H; [reflexivity|]. rewrite IH by (intros X; apply H; right; auto).
  destruct (Nat.eqb_spec ch colon); [exfalso; apply H; left; auto|reflexivity].
Qed.
Lemma splitLast_at o ct : ~ In colon ct -> splitLast (o ++ [colon] ++ ct) = Some (o, ct).
Proof.
  intros H. induction o as [|ch o IH]; cbn [app splitLast].
  - rewrite splitLast_none by auto. rewrite Nat.eqb_refl. reflexivity.
  - cbn [app] in IH. rewrite IH. reflexivity.
Qed.
Lemma findSet_in (objs : hwset) n s : isMap objs -> findSet objs n = Some s <-> In (n, s) objs.
Proof.
  unfold isMap. induction objs as [|[m w] r IH]; cbn [findSet map fst]; intros Hn; [split; [discriminate|intros []]|].
  inversion Hn; subst. destruct (name_dec m n) as [->|Hne].
  - split; [intros E; injection E as ->; left; auto|]. intros [E|Hr]; [injection E as ->; auto|]. exfalso. apply H1. apply in_map_iff. exists (n, s). auto.
  - rewrite IH by auto. split; [right; auto|]. intros [E|?]; [injection E; congruence|auto].
Qed.
Record hwCounter (objs : hwset) (n o ct : name) (v : R) : Prop := {
  hw_name : n = o ++ [58%nat] ++ ct; (* the character : *) hw_value : exists spec, In (o, spec) objs /\ In (ct, v) spec }.
Definition hwOwn (sets : list hwset) (p : process) (n : name) (v : R) : Prop :=
  exists objs o ct, In objs sets /\ p = hardware objs /\ hwCounter objs n o ct v.
(** Full statement: without the last hypothesis. *)
Theorem c34_hardware_partial MaxValue (sets : list hwset) :
  (forall objs, In objs sets -> isMap objs) ->
  (forall objs o spec, In objs sets -> In (o, spec) objs -> nonNul o /\ isMap spec) ->
  (forall objs o spec ct v, In objs sets -> In (o, spec) objs -> In (ct, v) spec -> nonNul ct /\ ~ In 58%nat ct /\ 0 <= v <= MaxValue) ->
  (forall objs objs' o spec spec' ct v, In objs sets -> In objs' sets -> In (o, spec) objs -> In (o, spec') objs' -> In (ct, v) spec ->
     exists v', In (ct, v') spec') ->
  exists l, aggregateStatistics MaxValue (map hardware sets) = Some l /\ NoDup (map fst l) /\
    (forall n, In n (map fst l) <-> exists objs o ct v, In objs sets /\ hwCounter objs n o ct v) /\
    forall n s vs, In (n, s) l -> owned (hwOwn sets) n (map hardware sets) vs -> describes vs s.
Proof.
  intros Hm Hs Hc Hcons.
  assert (Hin : forall objs n, In objs sets -> In n (hwNames objs) <-> exists o ct v, hwCounter objs n o ct v).
  { intros objs n Ho. unfold hwNames. rewrite in_flat_map. split.
    - intros [[o spec] [H1 H2]]. cbn [fst snd] in H2. apply in_map_iff in H2. destruct H2 as [[ct v] [<- H2]]. exists o, ct, v. constructor; [reflexivity|eauto].
    - intros [o [ct [v [-> [spec [H1 H2]]]]]]. exists (o, spec). split; auto. cbn [fst snd]. apply in_map_iff. exists (ct, v). auto. }
  destruct (statistics_general (hwOwn sets) MaxValue (map hardware sets)) as [l [E [H1 [H2 H3]]]].
  - intros p n Hp Hn. apply in_map_iff in Hp. destruct Hp as [objs [<- Ho]]. cbn [hardware pnames] in Hn. apply Hin in Hn; auto.
    destruct Hn as [o [ct [v [-> [spec [H1 H2]]]]]]. unfold nonNul. rewrite !Forall_app. split; [eapply Hs; eauto|]. split; [repeat constructor; discriminate|eapply Hc; eauto].
  - intros p n Hp. apply in_map_iff in Hp. destruct Hp as [objs [<- Ho]]. cbn [hardware pnames]. split.
    + intros Hn. apply Hin in Hn; auto. destruct Hn as [o [ct [v Hv]]]. exists v, objs, o, ct. auto.
    + intros [v [objs' [o [ct [Ho' [E Hv]]]]]]. assert (E' := f_equal pnames E). cbn [hardware pnames] in E'. rewrite E'. apply Hin; auto. eauto.
  - intros p n v Hp [q [Hq Hn]]. apply in_map_iff in Hp. destruct Hp as [objs [<- Ho]]. apply in_map_iff in Hq. destruct Hq as [objs' [<- Ho']].
    cbn [hardware pnames] in Hn. apply Hin in Hn; auto. destruct Hn as [o [ct [v' [-> [spec' [S1 S2]]]]]].
    assert (Hct : ~ In colon ct) by (eapply Hc; eauto).
    assert (Hval : forall x, plookup (hardware objs) (o ++ [colon] ++ ct) = Some x <-> exists spec, In (o, spec) objs /\ In (ct, x) spec).
    { intros x. cbn [hardware plookup]. unfold hwLookup. rewrite splitLast_at by auto. destruct (findSet objs o) as [spec|] eqn:F.
      - apply findSet_in in F; auto. destruct (Hcons _ _ _ _ _ _ _ Ho' Ho S1 F S2) as [w Hw]. assert (Hmap : isMap spec) by (apply (Hs objs o spec); auto).
        apply find_in in Hw; auto. rewrite Hw. split.
        + intros E. injection E as <-. exists spec. split; auto. apply find_in; auto.
        + intros [spec2 [T1 T2]]. apply findSet_in in T1; auto. apply findSet_in in F; auto. assert (spec2 = spec) by congruence. subst spec2. apply find_in in T2; auto. congruence.
      - split; [discriminate|]. intros [spec [T1 _]]. apply findSet_in in T1; auto. congruence. }
    rewrite Hval. split.
    + intros Hx. exists objs, o, ct. split; auto. split; auto. constructor; auto.
    + intros [objs2 [o2 [ct2 [Ho2 [E [En Hv2]]]]]].
      assert (Hct2 : ~ In colon ct2). { destruct Hv2 as [sp [? ?]]. eapply Hc; eauto. }
      assert (E2 := f_equal splitLast En). rewrite !splitLast_at in E2 by auto. injection E2 as <- <-.
      apply Hval. rewrite E. cbn [hardware plookup]. unfold hwLookup. rewrite splitLast_at by auto.
      destruct Hv2 as [sp [T1 T2]]. assert (Hmap : isMap sp) by (apply (Hs objs2 o sp); auto). assert (F := T1). apply findSet_in in F; auto. rewrite F. apply find_in in T2; auto. rewrite T2. reflexivity.
  - intros p n v Hp [objs [o [ct [Ho [_ [_ [spec [T1 T2]]]]]]]]. eapply Hc; eauto.
  - exists l. split; auto. split; auto. split; auto. intros n. rewrite H2. split.
    + intros [p [v [_ [objs [o [ct [? [_ ?]]]]]]]]. eauto 8.
    + intros [objs [o [ct [v [? ?]]]]]. exists (hardware objs), v. split; [apply in_map; auto|]. exists objs, o, ct. auto.
Qed.
Example c34_hardware_ok : let sets := [[(nA, [(nB, 3)])]; []; [(nA, [(nB, 4)])]] in
  (forall objs, In objs sets -> isMap objs) /\
  (forall objs o spec, In objs sets -> In (o, spec) objs -> nonNul o /\ isMap spec) /\
  (forall objs o spec ct v, In objs sets -> In (o, spec) objs -> In (ct, v) spec -> nonNul ct /\ ~ In 58%nat ct /\ 0 <= v <= 10) /\
  (forall objs objs' o spec spec' ct v, In objs sets -> In objs' sets -> In (o, spec) objs -> In (o, spec') objs' -> In (ct, v) spec ->
     exists v', In (ct, v') spec').
Proof.
  cbv zeta. split; [|split; [|split]].
  - intros objs [<-|[<-|[<-|[]]]]; unfold isMap; cbn [map fst]; repeat constructor; cbn; tauto.
  - intros objs o spec [<-|[<-|[<-|[]]]]; cbn [In]; intros H; repeat (destruct H as [H|H]; [injection H as <- <-; split; [repeat constructor; discriminate|unfold isMap; cbn; repeat constructor; cbn; tauto]|]); destruct H.
  - intros objs o spec ct v [<-|[<-|[<-|[]]]]; cbn [In]; (intros [X|[]] || intros []); injection X as <- <-; cbn [In]; intros [Y|[]]; injection Y as <- <-; (split; [repeat constructor; discriminate|split; [cbn; intuition discriminate|lra]]).
  - intros objs objs' o spec spec' ct v [<-|[<-|[<-|[]]]] [<-|[<-|[<-|[]]]]; cbn [In]; (intros [X|[]] || intros []); (intros [Y|[]] || intros []); injection X as <- <-; injection Y as <-; cbn [In]; intros [W|[]]; injection W as <- <-; eexists; left; reflexivity.
Qed.
(** Two processes have the same object with different counters: both are counted for both
    counters, with the value 0 where there is none. *)
Theorem c34_hardware_refuted MaxValue v w : 0 < v <= MaxValue -> 0 < w <= MaxValue ->
  let sets := [[(nA, [(nA, v)])]; [(nA, [(nB, w)])]] in let n := nA ++ [58%nat] ++ nA in
  owned (hwOwn sets) n (map hardware sets) [v] /\
  let s := aggregate MaxValue (map hardware sets) n in processCount s = 2%nat /\ smin s = 0 /\ average s = v / 2.
Proof.
  intros Hv Hw. cbv zeta. split.
  - apply owned_has; [|apply owned_not; [|apply owned_nil]].
    + exists [(nA, [(nA, v)])], nA, nA. split; [left; reflexivity|]. split; [reflexivity|]. constructor; [reflexivity|]. exists [(nA, v)]. split; left; reflexivity.
    + intros x [objs [o [ct [Ho [E [En [spec [T1 T2]]]]]]]]. destruct Ho as [<-|[<-|[]]].
      * assert (E' := f_equal pnames E). discriminate E'.
      * destruct T1 as [T1|[]]. injection T1 as <- <-. destruct T2 as [T2|[]]. injection T2 as <- <-. discriminate En.
  - unfold aggregate. cbn [map hardware plookup hwLookup splitLast nA app Nat.eqb colon findSet fst snd find].
    destruct (name_dec [97%nat] [97%nat]) as [_|]; [|congruence]. cbn [find]. destruct (name_dec [97%nat] [97%nat]) as [_|]; [|congruence].
    destruct (name_dec nB [97%nat]) as [X|_]; [discriminate X|]. cbn. repeat split; auto.
    + rewrite Rmin_right; lra.
    + lra.
Qed.
Example c34_hardware_refuted_ok : 0 < 6 <= 10 /\ 0 < 7 <= 10. Proof. lra. Qed.
Print Assumptions c34_names.
Print Assumptions c34_statistics.
Print Assumptions c34_negative_refuted.
Print Assumptions c34_hardware_partial.
Print Assumptions c34_hardware_refuted.

(** ** C35 *)
(** The spec: the completed intervals since the last accepted reset, and the start of the
    interval under way, after a history of requests. *)
Inductive history : list op -> list (Z * Z) -> option Z -> Prop :=
| h_new : history [] [] None
| h_start h iv t : history h iv None -> history (h ++ [Start t]) iv (Some t)
| h_stop h iv s t : history h iv (Some s) -> history (h ++ [Stop t]) (iv ++ [(s, t)]) None
| h_reset h iv : history h iv None -> history (h ++ [ResetT]) [] None
| h_start_rejected h iv s t : history h iv (Some s) -> history (h ++ [Start t]) iv (Some s)
| h_stop_rejected h iv t : history h iv None -> history (h ++ [Stop t]) iv None
| h_reset_rejected h iv s : history h iv (Some s) -> history (h ++ [ResetT]) iv (Some s).
(** Every history has such a description. *)
Lemma history_total h : exists iv p, history h iv p.
Proof.
  induction h as [|o h [iv [p IH]]] using rev_ind; [exists [], None; constructor|].
  destruct o as [t|t|], p as [s|]; eauto using history.
Qed.
Definition neverReads (inv : Z) (h : list op) : Prop := forall t, In (Start t) h -> t <> inv.
Theorem c35_value inv tick h iv p : neverReads inv h -> history h iv p ->
  tval (run inv tick h) = Rsum iv (fun ab => IZR (snd ab - fst ab) * tick) /\
  isRunning inv (run inv tick h) = (match p with Some _ => true | None => false end).
Proof.
  intros Hr H. enough (tval (run inv tick h) = Rsum iv (fun ab => IZR (snd ab - fst ab) * tick) /\ startTime (run inv tick h) = (match p with Some s => s | None => inv end) /\ (forall s, p = Some s -> s <> inv)) as [E1 [E2 E3]].
  { split; auto. unfold isRunning. rewrite E2. destruct p as [s|]; [|rewrite Z.eqb_refl; reflexivity]. destruct (Z.eqb_spec s inv); [exfalso; eapply E3; eauto|reflexivity]. }
  induction H; [split; [reflexivity|split; [reflexivity|discriminate]]| | | | | |];
  (assert (Hr' : neverReads inv h) by (intros x Hx; apply Hr; apply in_or_app; auto)); destruct (IHhistory Hr') as [E1 [E2 E3]];
  unfold run in *; rewrite fold_left_app; cbn [fold_left step]; unfold isRunning; rewrite E2;
  try (rewrite Z.eqb_refl); try (assert (X : s <> inv) by auto; destruct (Z.eqb_spec s inv) as [|_]; [congruence|]); cbn [negb fst tval startTime].
  - split; auto. split; auto. intros s X. injection X as <-. apply Hr. apply in_or_app. right. left. auto.
  - split; [|split; [auto|discriminate]]. rewrite Rsum_app, E1. cbn [Rsum fst snd]. lra.
  - repeat split; auto; discriminate.
  - auto.
  - auto.
  - auto.
Qed.
(** Rejected requests are exactly the misuses, and change nothing. *)
Theorem c35_misuse inv tick h iv p o : neverReads inv h -> history h iv p ->
  let t := run inv tick h in
  (snd (step inv tick t o) = true <-> match o, p with Start _, Some _ | Stop _, None | ResetT, Some _ => True | _, _ => False end) /\
  (snd (step inv tick t o) = true -> fst (step inv tick t o) = t).
Proof.
  intros Hr H. cbv zeta. destruct (c35_value inv tick h iv p Hr H) as [_ E].
  destruct o; cbn [step]; rewrite E; destruct p; cbn [fst snd]; split; intuition (try discriminate; auto).
Qed.
(** Properly used: the sum of the intervals since the reset. *)
Definition use (iv : list (Z * Z)) : list op := flat_map (fun ab => [Start (fst ab); Stop (snd ab)]) iv.
Lemma history_use h iv0 iv : history h iv0 None -> history (h ++ use iv) (iv0 ++ iv) None.
Proof.
  revert h iv0. induction iv as [|[a b] iv IH]; intros h iv0 H; [cbn; rewrite !app_nil_r; auto|].
  replace (h ++ use ((a, b) :: iv)) with (h ++ [Start a] ++ [Stop b] ++ use iv) by reflexivity.
  change (iv0 ++ (a, b) :: iv) with (iv0 ++ [(a, b)] ++ iv). rewrite !app_assoc. apply IH. constructor. constructor. auto.
Qed.
Theorem c35_since_reset inv tick before h iv : neverReads inv (before ++ ResetT :: use iv) -> history before h None ->
  tval (run inv tick (before ++ ResetT :: use iv)) = Rsum iv (fun ab => IZR (snd ab - fst ab) * tick).
Proof.
  intros Hr Hb. change (ResetT :: use iv) with ([ResetT] ++ use iv) in *. rewrite app_assoc in *.
  apply (c35_value inv tick _ iv None Hr). apply (history_use (before ++ [ResetT]) [] iv). eapply h_reset; eauto.
Qed.
Example c35_ok : neverReads 0 ([Stop 3; Start 5; Start 6; Stop 9] ++ ResetT :: use [(10, 12); (20, 25)])%Z /\
  history [Stop 3; Start 5; Start 6; Stop 9]%Z [(5, 9)]%Z None.
Proof.
  split.
  - intros t Ht. cbn in Ht. repeat (destruct Ht as [Ht|Ht]; [try discriminate Ht; injection Ht as <-; lia|]). destruct Ht.
  - apply (h_stop [Stop 3; Start 5; Start 6] [] 5 9)%Z. apply (h_start_rejected [Stop 3; Start 5] [] 5 6)%Z. apply (h_start [Stop 3] [] 5)%Z. apply (h_stop_rejected [] [] 3)%Z. constructor.
Qed.
(** The two timers: OSTimer with clock readings after the epoch, PAPITimer with readings which are
    not negative. *)
Theorem c35_os tick h iv p : (forall t, In (Start t) h -> 0 < t)%Z -> history h iv p ->
  tval (run osInvalid tick h) = Rsum iv (fun ab => IZR (snd ab - fst ab) * tick) /\ isRunning osInvalid (run osInvalid tick h) = (match p with Some _ => true | None => false end).
Proof. intros Hr H. apply c35_value; [|exact H]. intros t Ht. specialize (Hr t Ht). unfold osInvalid. lia. Qed.
Theorem c35_papi tick h iv p : (forall t, In (Start t) h -> 0 <= t)%Z -> history h iv p ->
  tval (run papiInvalid tick h) = Rsum iv (fun ab => IZR (snd ab - fst ab) * tick) /\ isRunning papiInvalid (run papiInvalid tick h) = (match p with Some _ => true | None => false end).
Proof. intros Hr H. apply c35_value; [|exact H]. intros t Ht. specialize (Hr t Ht). unfold papiInvalid. lia. Qed.
(** OSTimer, full statement with readings at any time: refuted for the epoch. *)
(** At the time stamp used for "not running", the epoch for OSTimer, a started timer does not
    run and its stop is rejected. *)
Theorem c35_epoch_refuted tick t : let h := [Start 0] in
  isRunning osInvalid (run osInvalid tick h) = false /\ snd (step osInvalid tick (run osInvalid tick h) (Stop t)) = true.
Proof. split; reflexivity. Qed.
(** The clock is std::chrono::system_clock, which can be set back during an interval: the value
    of the timer is then negative. *)
Theorem c35_backwards_refuted tick a b : 0 < tick -> (0 < b < a)%Z -> tval (run osInvalid tick (use [(a, b)])) < 0.
Proof.
  intros Ht Hab. rewrite (proj1 (c35_value osInvalid tick (use [(a, b)]) [(a, b)] None ltac:(intros t [X|[X|[]]]; [injection X as <-; unfold osInvalid; lia|discriminate]) (history_use [] [] [(a, b)] h_new))).
  cbn [Rsum fst snd]. assert (IZR (b - a) < 0) by (apply IZR_lt; lia). nra.
Qed.
Example c35_backwards_ok : tval (run osInvalid 1 (use [(5, 3)]%Z)) < 0.
Proof. apply c35_backwards_refuted; lra || lia. Qed.
Print Assumptions history_total.
Print Assumptions c35_value.
Print Assumptions c35_os.
Print Assumptions c35_papi.
Print Assumptions c35_misuse.
Print Assumptions c35_since_reset.
Print Assumptions c35_epoch_refuted.
Print Assumptions c35_backwards_refuted.
