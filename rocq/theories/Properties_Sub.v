(** C40 (maps of sub-networks) and C41 (exported connectivities). *)
From Coq Require Import List ZArith Lia Bool Arith Permutation Sorted.
From Verif Require Import SubModel ChainProofs Properties_Ids.
Import ListNotations.
Open Scope nat_scope.

(** *** The order of the moment unknowns *)
Lemma somes_sorted (f : nat -> option nat) M : forall a ss base,
  (forall s id, a <= s -> (f s = Some id <-> exists q, nth_error ss q = Some s /\ id = base + q)) ->
  StronglySorted lt ss -> (forall s, In s ss -> a <= s < a + M) ->
  somes (map f (seq a M)) = seq base (length ss).
Proof.
  induction M as [|M IH]; intros a ss base Hf Hs Hr.
  - destruct ss as [|s ss]; [reflexivity|]. specialize (Hr s (or_introl eq_refl)). lia.
  - cbn [seq map]. unfold somes. cbn [flat_map]. fold (somes (map f (seq (S a) M))). destruct (f a) as [id|] eqn:E.
    + apply Hf in E as [q [Hq ->]]; [|lia]. destruct ss as [|s ss]; [destruct q; discriminate|].
      assert (s = a).
      { destruct q as [|q]; [cbn in Hq; congruence|]. cbn in Hq. apply nth_error_In in Hq. inversion Hs as [|? ? _ Hall]; subst. rewrite Forall_forall in Hall.
        specialize (Hall a Hq). specialize (Hr s (or_introl eq_refl)). lia. }
      subst s. assert (q = 0). { destruct q as [|q]; auto. cbn in Hq. apply nth_error_In in Hq. inversion Hs as [|? ? _ Hall]; subst. rewrite Forall_forall in Hall. specialize (Hall a Hq). lia. }
      subst q. cbn [length seq app]. f_equal; [lia|]. apply IH.
      * intros t id Ht. rewrite Hf by lia. split.
        -- intros [q [Hq' ->]]. rename Hq' into Hz. clear Hq. rename Hz into Hq. destruct q as [|q]; cbn in Hq; [injection Hq as Hq; lia|]. exists q. split; auto. lia.
        -- intros [q [Hz ->]]. exists (S q). split; auto. lia.
      * inversion Hs; auto.
      * intros t Ht. inversion Hs as [|? ? _ Hall]; subst. rewrite Forall_forall in Hall. specialize (Hall t Ht). specialize (Hr t (or_intror Ht)). lia.
    + cbn [app]. apply IH; auto.
      * intros t id Ht. apply Hf. lia.
      * intros t Ht. specialize (Hr t Ht). assert (t <> a); [|lia]. intros ->. apply In_nth_error in Ht as [q Hq].
        assert (f a = Some (base + q)) by (apply Hf; [lia|]; exists q; auto). congruence.
Qed.
Lemma seq_sorted (l : list nat) : (forall p q a b, nth_error l p = Some a -> nth_error l q = Some b -> p < q -> a < b) -> StronglySorted lt l.
Proof.
  induction l as [|x l IH]; intros H; constructor.
  - apply IH. intros p q a b Ha Hb Hpq. apply (H (S p) (S q)); auto. lia.
  - apply Forall_forall. intros y Hy. apply In_nth_error in Hy as [q Hq]. apply (H 0 (S q)); auto. lia.
Qed.
Lemma firstn_snoc (A : Type) (l : list A) m d : m < length l -> firstn (S m) l = firstn m l ++ [nth m l d].
Proof. revert m. induction l as [|x l IH]; intros [|m] H; cbn in H |- *; try lia; auto. f_equal. apply IH. lia. Qed.
Lemma nth_map_inv (A B : Type) (f : A -> B) l p y : nth_error (map f l) p = Some y -> exists x, nth_error l p = Some x /\ f x = y.
Proof. revert p. induction l as [|a l IH]; intros [|p] H; try discriminate; cbn in *; [injection H as <-; eauto|eauto]. Qed.
(** The moment ids listed cluster by cluster are consecutive, starting after the clusters. This
    is what the positions in the sub-network map rely on. *)
Theorem c40_moment_order slot nSlots clusters : (forall a b, a <= b -> slot a <= slot b) -> slotsApart slot clusters ->
  (forall ws k, In ws clusters -> k < length ws -> slot k < nSlots) ->
  concat (getAllMomentIdInfo slot nSlots clusters) = seq (length clusters) (nMomentIds clusters) /\
  map (@length nat) (getAllMomentIdInfo slot nSlots clusters) = counts clusters.
Proof.
  intros Hmono Hap Hsl. set (n := length clusters).
  assert (Row : forall i, i < n -> somes (map (momentIds slot clusters i) (seq 0 nSlots)) = seq (n + scanned clusters i) (countAxes (nth i clusters []))).
  { intros i Hi. unfold momentIds. set (ws := nth i clusters []). assert (Hin : In ws clusters) by (apply nth_In; auto).
    destruct (@assign_spec slot clusters Hmono (scanned clusters i) ws) as (row & E & Hrow); [unfold n in Hi; lia| |].
    { intros a b Ha Hb Es. apply (Hap i); auto; apply grouped_In; auto. }
    rewrite E. cbn [snd]. rewrite (somes_sorted row nSlots 0 (map slot (groupedFrom 0 ws)) (n + scanned clusters i)).
    - rewrite map_length, countAxes_grouped. reflexivity.
    - intros s id _. rewrite Hrow. split.
      + intros (p & k & Hp & Hk & ->). exists p. split; [|unfold n; lia]. rewrite <- Hk. apply map_nth_error. auto.
      + intros (q & Hq & ->). apply nth_map_inv in Hq as [k [Hk <-]]. exists q, k. repeat split; auto.
    - apply seq_sorted. intros p q a b Ha Hb Hpq. apply nth_map_inv in Ha as [k [Hk <-]], Hb as [k' [Hk' <-]].
      assert (k < k') by (eapply grouped_sorted; eauto). assert (slot k <= slot k') by (apply Hmono; lia).
      assert (slot k <> slot k'); [|lia]. intros Es. apply nth_error_In in Hk, Hk'. apply grouped_In in Hk, Hk'. assert (k = k'); [|lia]. apply (Hap i); auto.
    - intros s Hs. apply in_map_iff in Hs as [k [<- Hk]]. split; [lia|]. apply (Hsl ws); auto. apply grouped_lt. auto. }
  split.
  - unfold getAllMomentIdInfo. fold n. assert (P : forall m, m <= n -> concat (map (fun i => somes (map (momentIds slot clusters i) (seq 0 nSlots))) (seq 0 m)) = seq n (scanned clusters m)).
    { induction m as [|m IH]; intros Hm; [reflexivity|]. rewrite seq_S, map_app, concat_app, IH by lia. cbn [map concat Nat.add]. rewrite app_nil_r, Row by lia.
      rewrite <- seq_app. f_equal. unfold scanned, counts. rewrite (firstn_snoc _ _ m (countAxes [])) by (rewrite map_length; fold n; lia).
      rewrite total_app. cbn [total]. rewrite map_nth. lia. }
    rewrite P by lia. f_equal. unfold scanned, nMomentIds. rewrite firstn_all2; [reflexivity|]. unfold counts. rewrite map_length. fold n. lia.
  - unfold getAllMomentIdInfo, counts. rewrite map_map. fold n. erewrite map_ext_in; [|intros i Hi; apply in_seq in Hi; rewrite Row by lia; rewrite seq_length; reflexivity].
    unfold n. clear. induction clusters as [|ws l IH]; [reflexivity|]. cbn [length seq map nth]. f_equal. rewrite <- seq_shift, map_map. exact IH.
Qed.
Example c40_moment_order_ok : getAllMomentIdInfo (slotPSI 1) 2 exClusters = [[]; [4]; [5; 6]; [7]].
Proof. reflexivity. Qed.

(** *** C40 *)
Lemma search_some cur b : forall j i, searchFrom j cur b = Some i -> j <= i /\ nth_error cur (i - j) = Some b.
Proof.
  induction cur as [|x cur IH]; intros j i H; [discriminate|]. cbn [searchFrom] in H. destruct (bound_dec b x) as [->|].
  - injection H as <-. rewrite Nat.sub_diag. auto.
  - apply IH in H as [H1 H2]. split; [lia|]. replace (i - j) with (S (i - S j)) by lia. auto.
Qed.
Lemma search_none cur b : forall j, searchFrom j cur b = None -> ~ In b cur.
Proof. induction cur as [|x cur IH]; intros j H; [auto|]. cbn [searchFrom] in H. destruct (bound_dec b x) as [->|N]; [discriminate|]. intros [->|Hin]; [congruence|]. apply (IH _ H Hin). Qed.
Lemma clusterIds_spec cur sub : (forall b, In b sub -> In b cur) -> Forall2 (fun b i => nth_error cur i = Some b) sub (clusterIds cur sub).
Proof.
  intros H. induction sub as [|b sub IH]; [constructor|]. unfold clusterIds, somes. cbn [map flat_map]. destruct (searchFrom 0 cur b) as [i|] eqn:E.
  - cbn [app]. apply search_some in E as [_ E]. rewrite Nat.sub_0_r in E. constructor; auto. apply IH. intros b' Hb. apply H. right. auto.
  - exfalso. apply (search_none _ _ _ E). apply H. left. auto.
Qed.
Lemma pushIds_ok mom l ids c : forall m a temp, nth_error temp l = Some c -> nth_error mom c = Some ids -> a + m <= length ids ->
  pushIds mom l (seq a m) temp = Some (temp ++ firstn m (skipn a ids)).
Proof.
  induction m as [|m IH]; intros a temp H1 H2 H3; cbn [seq pushIds]; [rewrite app_nil_r; reflexivity|]. rewrite H1, H2.
  destruct (nth_error ids a) as [id|] eqn:E; [|apply nth_error_None in E; lia].
  rewrite IH by (auto; try lia; rewrite nth_error_app1; auto; apply nth_error_Some; congruence).
  f_equal. rewrite <- app_assoc. f_equal. assert (S1 : skipn a ids = id :: skipn (S a) ids).
  { clear -E. revert a E. induction ids as [|x ids IH]; intros [|a] E; try discriminate; cbn in *; [injection E as ->; reflexivity|]. apply IH. auto. }
  rewrite S1. reflexivity.
Qed.
Lemma pushMoments_ok mom : forall subMom l temp,
  (forall j, j < length subMom -> exists c ids, nth_error temp (l + j) = Some c /\ nth_error mom c = Some ids /\ length ids = length (nth j subMom [])) ->
  pushMoments mom l subMom temp = Some (temp ++ concat (map (fun j => nth (nth (l + j) temp 0) mom []) (seq 0 (length subMom)))).
Proof.
  induction subMom as [|x subMom IH]; intros l temp H; cbn [pushMoments length seq map concat]; [rewrite app_nil_r; reflexivity|].
  destruct (H 0 ltac:(cbn; lia)) as (c & ids & H1 & H2 & H3). rewrite Nat.add_0_r in *. cbn [nth] in H3.
  rewrite (pushIds_ok mom l ids c) by (auto; cbn; lia). cbn [skipn]. rewrite <- H3, firstn_all.
  assert (Lt : forall j, j < length subMom -> S l + j < length temp).
  { intros j Hj. destruct (H (S j) ltac:(cbn; lia)) as (c' & ids' & K & _). replace (S l + j) with (l + S j) by lia. apply nth_error_Some. congruence. }
  rewrite IH.
  - f_equal. rewrite <- app_assoc. f_equal. rewrite (nth_error_nth _ _ 0 H1), (nth_error_nth _ _ [] H2). f_equal. rewrite <- seq_shift, map_map. f_equal. apply map_ext_in.
    intros j Hj. apply in_seq in Hj. rewrite app_nth1 by (apply Lt; lia). f_equal. f_equal. lia.
  - intros j Hj. destruct (H (S j) ltac:(cbn; lia)) as (c' & ids' & K1 & K2 & K3). exists c', ids'. cbn [nth] in K3. repeat split; auto.
    replace (S l + j) with (l + S j) by lia. rewrite nth_error_app1; auto. apply nth_error_Some. congruence.
Qed.

(** What the two networks agree on: distinct bounds, every cluster of the sub-network is a
    cluster of the full network, and the same cluster has the same number of moments. *)
Record compatible (cur : list bound) (mom : list (list nat)) (sub : list bound) (subMom : list (list nat)) : Prop := {
  cp_cur : NoDup cur; cp_sub : NoDup sub; cp_in : forall b, In b sub -> In b cur;
  cp_mom : length mom = length cur; cp_subMom : length subMom = length sub;
  cp_same : forall l i b, nth_error sub l = Some b -> nth_error cur i = Some b -> length (nth l subMom []) = length (nth i mom []) }.
Lemma Forall2_len (A B : Type) (P : A -> B -> Prop) l l' : Forall2 P l l' -> length l = length l'.
Proof. induction 1; cbn; congruence. Qed.
Lemma map_form cur mom sub subMom : compatible cur mom sub subMom ->
  let base := clusterIds cur sub in
  Forall2 (fun b i => nth_error cur i = Some b) sub base /\
  fromSubNetwork cur mom sub subMom = Some (base ++ concat (map (fun c => nth c mom []) base)).
Proof.
  intros [H1 H2 H3 H4 H5 H6] base. assert (F := clusterIds_spec cur sub H3). fold base in F. split; auto. assert (L := Forall2_len _ _ _ _ _ F).
  unfold fromSubNetwork. fold base. rewrite pushMoments_ok.
  - f_equal. f_equal. f_equal. rewrite H5, L. clear. assert (E : forall l, map (fun j => nth (nth j l 0) mom []) (seq 0 (length l)) = map (fun c => nth c mom []) l).
    { intros l. rewrite <- (map_map (fun j => nth j l 0) (fun c => nth c mom [])). f_equal. induction l as [|x l IH]; [reflexivity|]. cbn [length seq map nth]. f_equal. rewrite <- seq_shift, map_map. exact IH. }
    apply E.
  - intros j Hj. rewrite H5 in Hj. destruct (nth_error sub j) as [b|] eqn:Eb; [|apply nth_error_None in Eb; lia].
    destruct (nth_error base j) as [c|] eqn:Ec; [|apply nth_error_None in Ec; lia].
    assert (Hc : nth_error cur c = Some b). { clear -F Eb Ec. revert j Eb Ec. induction F as [|b' c' sub base Hb F IH]; intros [|j] Eb Ec; try discriminate; cbn in *; [congruence|eauto]. }
    assert (c < length mom). { rewrite H4. apply nth_error_Some. congruence. }
    exists c, (nth c mom []). repeat split; [exact Ec|apply nth_error_nth'; auto|]. symmetry. eapply H6; eauto.
Qed.
Lemma Forall2_nth (A B : Type) (P : A -> B -> Prop) l l' : Forall2 P l l' -> forall j a, nth_error l j = Some a -> exists b, nth_error l' j = Some b /\ P a b.
Proof. induction 1 as [|a b l l' H F IH]; intros [|j] x Hx; try discriminate; cbn in *; [injection Hx as <-; eauto|eauto]. Qed.
Lemma nth_concat (A : Type) (L : list (list A)) : forall l j x, nth_error (nth l L []) j = Some x -> nth_error (concat L) (list_sum (map (@length A) (firstn l L)) + j) = Some x.
Proof.
  induction L as [|y L IH]; intros [|l] j x H; cbn in H; try (destruct j; discriminate).
  - cbn. rewrite nth_error_app1; auto. apply nth_error_Some. congruence.
  - cbn [firstn map concat]. change (list_sum (?a :: ?r)) with (a + list_sum r). rewrite nth_error_app2 by lia. rewrite <- Nat.add_assoc, Nat.add_comm, Nat.add_sub. rewrite <- (IH l j x H). f_equal.
Qed.
Lemma nth_concat_seq L a n : concat L = seq a n -> forall l j x, nth_error (nth l L []) j = Some x -> x = a + list_sum (map (@length nat) (firstn l L)) + j.
Proof.
  intros E l j x H. apply nth_concat in H. rewrite E in H. assert (K : list_sum (map (@length nat) (firstn l L)) + j < length (seq a n)) by (apply nth_error_Some; congruence).
  rewrite seq_length in K. apply (nth_error_nth _ _ 0) in H. rewrite seq_nth in H by auto. lia.
Qed.
Lemma img_nth (mom : list (list nat)) base j c : nth_error base j = Some c -> nth j (map (fun c => nth c mom []) base) [] = nth c mom [].
Proof. intros H. apply nth_error_nth. apply (map_nth_error (fun c => nth c mom [])). exact H. Qed.
(** Cluster unknowns go to the cluster with the same bounds, moment unknowns to the corresponding
    moment of that cluster. *)
Theorem c40_map cur mom sub subMom nm : compatible cur mom sub subMom -> concat subMom = seq (length sub) nm ->
  exists m, fromSubNetwork cur mom sub subMom = Some m /\ length m = length sub + nm /\
    (forall l b, nth_error sub l = Some b -> exists i, nth_error m l = Some i /\ nth_error cur i = Some b) /\
    (forall l b j q, nth_error sub l = Some b -> nth_error (nth l subMom []) j = Some q ->
       exists i id, nth_error cur i = Some b /\ nth_error (nth i mom []) j = Some id /\ nth_error m q = Some id).
Proof.
  intros H Hs. destruct (map_form _ _ _ _ H) as [F E]. set (base := clusterIds cur sub) in *. set (img := map (fun c => nth c mom []) base) in *.
  assert (L := Forall2_len _ _ _ _ _ F). assert (Lens : map (@length nat) subMom = map (@length nat) img).
  { apply (nth_ext _ _ 0 0); [unfold img; rewrite !map_length; destruct H; congruence|]. intros j Hj. rewrite map_length in Hj. destruct H as [H1 H2 H3 H4 H5 H6]. rewrite H5 in Hj.
    destruct (nth_error sub j) as [b|] eqn:Eb; [|apply nth_error_None in Eb; lia]. destruct (Forall2_nth _ _ _ _ _ F j b Eb) as [c [Ec Hc]].
    change 0 with (length (@nil nat)). rewrite !map_nth. rewrite (H6 j c b Eb Hc). f_equal. unfold img. symmetry. apply img_nth. exact Ec. }
  exists (base ++ concat img). split; [exact E|]. split; [|split].
  - rewrite app_length, <- L. f_equal. assert (LC : forall A (X : list (list A)), length (concat X) = list_sum (map (@length A) X)).
    { intros A X. induction X as [|x X IH]; [reflexivity|]. cbn [concat map]. rewrite app_length, IH. reflexivity. }
    rewrite LC, <- Lens, <- LC, Hs. apply seq_length.
  - intros l b Hl. destruct (Forall2_nth _ _ _ _ _ F l b Hl) as [i [Hi Hc]]. exists i. split; auto. rewrite nth_error_app1; auto. apply nth_error_Some. congruence.
  - intros l b j q Hl Hq. destruct (Forall2_nth _ _ _ _ _ F l b Hl) as [i [Hi Hc]]. assert (Hlen := cp_same _ _ _ _ H l i b Hl Hc).
    destruct (nth_error (nth i mom []) j) as [id|] eqn:Eid.
    2: { apply nth_error_None in Eid. assert (j < length (nth l subMom [])) by (apply nth_error_Some; congruence). lia. }
    exists i, id. split; [auto|]. split; [auto|]. rewrite (nth_concat_seq _ _ _ Hs l j q Hq). rewrite nth_error_app2 by lia.
    replace (length sub + list_sum (map (@length nat) (firstn l subMom)) + j - length base) with (list_sum (map (@length nat) (firstn l subMom)) + j) by lia.
    rewrite <- firstn_map, Lens, firstn_map. apply nth_concat. unfold img. rewrite (img_nth _ _ _ _ Hi). exact Eid.
Qed.
Lemma concat_owner (L : list (list nat)) : NoDup (concat L) -> forall c c' x, In x (nth c L []) -> In x (nth c' L []) -> c = c'.
Proof.
  induction L as [|y L IH]; intros N c c' x Hc Hc'; [destruct c; destruct Hc|]. cbn [concat] in N.
  assert (Out : forall k, In x (nth k L []) -> In x (concat L)).
  { intros k Hk. apply in_concat. exists (nth k L []). split; auto. destruct (Nat.lt_ge_cases k (length L)); [apply nth_In; auto|]. rewrite nth_overflow in Hk by auto. destruct Hk. }
  assert (D : In x y -> In x (concat L) -> False). { clear -N. induction y as [|z y IH]; [auto|]. cbn in N. inversion N; subst. intros [->|Hy] Hx; [apply H1; apply in_or_app; auto|apply IH; auto]. }
  destruct c as [|c], c' as [|c']; cbn [nth] in Hc, Hc'; auto; [exfalso; eauto|exfalso; eauto|]. f_equal. apply (IH) with (x := x); auto.
  clear -N. induction y as [|z y IHy]; [auto|]. apply IHy. inversion N; auto.
Qed.
Lemma NoDup_part (L : list (list nat)) c : NoDup (concat L) -> NoDup (nth c L []).
Proof.
  revert c. induction L as [|y L IH]; intros [|c] N; cbn; try constructor; cbn in N.
  - clear IH. induction y as [|z y IHy]; [constructor|]. inversion N; subst. constructor; auto. intros Hz. apply H1. apply in_or_app. auto.
  - apply IH. clear IH. induction y as [|z y IHy]; [auto|]. inversion N; auto.
Qed.
Lemma NoDup_app_intro (A : Type) (l1 l2 : list A) : NoDup l1 -> NoDup l2 -> (forall x, In x l1 -> In x l2 -> False) -> NoDup (l1 ++ l2).
Proof. induction l1 as [|x l1 IH]; intros H1 H2 H; [auto|]. inversion H1; subst. cbn. constructor; [|apply IH; auto; intros y Hy Hy2; apply (H y); cbn; auto].
  intros Hin. apply in_app_or in Hin as [Hin|Hin]; [auto|]. apply (H x); cbn; auto. Qed.
Lemma NoDup_selected (L : list (list nat)) idx : NoDup (concat L) -> NoDup idx -> NoDup (concat (map (fun c => nth c L []) idx)).
Proof.
  intros N. induction idx as [|c idx IH]; intros Hi; [constructor|]. inversion Hi; subst. cbn [map concat]. apply NoDup_app_intro; auto.
  - apply NoDup_part. auto.
  - intros x Hx Hx'. apply in_concat in Hx' as [y [Hy Hxy]]. apply in_map_iff in Hy as [c' [<- Hc']]. rewrite (concat_owner L N c c' x Hx Hxy) in H1. auto.
Qed.
(** The map is injective and its values are unknowns of the full network. *)
Theorem c40_injective cur mom sub subMom nm NM m : compatible cur mom sub subMom -> concat subMom = seq (length sub) nm -> concat mom = seq (length cur) NM ->
  fromSubNetwork cur mom sub subMom = Some m -> NoDup m /\ forall id, In id m -> id < length cur + NM.
Proof.
  intros H Hs Hm E. destruct (map_form _ _ _ _ H) as [F E']. rewrite E in E'. injection E' as ->. set (base := clusterIds cur sub) in *.
  assert (Hb : forall c, In c base -> c < length cur).
  { intros c Hc. clear -F Hc. induction F as [|b i sub base Hi F IH]; [destruct Hc|]. destruct Hc as [<-|Hc]; auto. apply nth_error_Some. congruence. }
  assert (Nb : NoDup base).
  { assert (Ns := cp_sub _ _ _ _ H). clear -F Ns. induction F as [|b i sub base Hi F IH]; [constructor|]. inversion Ns; subst. constructor; auto. intros Hin. apply H1.
    clear -F Hin Hi. induction F as [|b' i' sub base Hb' F IH]; [destruct Hin|]. destruct Hin as [->|Hin]; [left; congruence|right; auto]. }
  assert (Nm : NoDup (concat mom)) by (rewrite Hm; apply seq_NoDup).
  assert (Hc : forall x, In x (concat (map (fun c => nth c mom []) base)) -> length cur <= x < length cur + NM).
  { intros x Hx. apply in_concat in Hx as [y [Hy Hx]]. apply in_map_iff in Hy as [c [<- Hc]]. apply in_seq. rewrite <- Hm. apply in_concat. exists (nth c mom []). split; auto.
    apply nth_In. rewrite (cp_mom _ _ _ _ H). auto. }
  split.
  - apply NoDup_app_intro; auto; [apply NoDup_selected; auto|]. intros x Hx Hx'. specialize (Hb x Hx). specialize (Hc x Hx'). lia.
  - intros id Hid. apply in_app_or in Hid as [Hid|Hid]; [specialize (Hb id Hid); lia|specialize (Hc id Hid); lia].
Qed.
(** Sub-networks which share no cluster share no unknown; when their clusters are together as
    many as those of the full network, and likewise the moments (the two asserts of
    initializeClusterMap), each unknown of the full network has exactly one place. *)
Lemma map_owner cur mom sub subMom nm NM m q : compatible cur mom sub subMom -> concat subMom = seq (length sub) nm -> concat mom = seq (length cur) NM ->
  fromSubNetwork cur mom sub subMom = Some m -> In q m ->
  exists b i, In b sub /\ nth_error cur i = Some b /\ (q = i \/ In q (nth i mom [])).
Proof.
  intros H Hs Hm E Hq. destruct (map_form _ _ _ _ H) as [F E']. rewrite E in E'. injection E' as ->. set (base := clusterIds cur sub) in *.
  assert (B : forall i, In i base -> exists b, In b sub /\ nth_error cur i = Some b).
  { intros i Hi. clear -F Hi. induction F as [|b i' sub base Hb F IH]; [destruct Hi|]. destruct Hi as [<-|Hi]; [exists b; cbn; auto|]. destruct (IH Hi) as [b' [K1 K2]]. exists b'. cbn. auto. }
  apply in_app_or in Hq as [Hq|Hq].
  - destruct (B q Hq) as [b [K1 K2]]. exists b, q. auto.
  - apply in_concat in Hq as [y [Hy Hq]]. apply in_map_iff in Hy as [c [<- Hc]]. destruct (B c Hc) as [b [K1 K2]]. exists b, c. auto.
Qed.
Theorem c40_partition cur mom NM (subs : list (list bound * list (list nat))) ms : concat mom = seq (length cur) NM ->
  (forall s, In s subs -> compatible cur mom (fst s) (snd s) /\ concat (snd s) = seq (length (fst s)) (length (concat (snd s)))) ->
  NoDup (concat (map fst subs)) -> length (concat (map fst subs)) = length cur -> length (concat (map (fun s => concat (snd s)) subs)) = NM ->
  Forall2 (fun s m => fromSubNetwork cur mom (fst s) (snd s) = Some m) subs ms -> Permutation (concat ms) (seq 0 (length cur + NM)).
Proof.
  intros Hm Hc Hn Hl1 Hl2 F. apply NoDup_Permutation_bis.
  - clear Hl1 Hl2. induction F as [|s m subs ms E F IH]; [constructor|]. cbn [map concat] in Hn |- *.
    assert (Hcs := Hc s (or_introl eq_refl)). destruct Hcs as [Hcs Hss]. destruct (c40_injective _ _ _ _ _ _ _ Hcs Hss Hm E) as [N1 _].
    apply NoDup_app_intro; auto.
    + apply IH; [intros s' Hs'; apply Hc; right; auto|]. clear -Hn. induction (fst s) as [|x l IHl]; [auto|]. inversion Hn; auto.
    + intros q Hq Hq'. apply in_concat in Hq' as [m' [Hm' Hq']].
      assert (exists s', In s' subs /\ fromSubNetwork cur mom (fst s') (snd s') = Some m') as [s' [Hs' E']].
      { clear -F Hm'. induction F as [|s0 m0 subs ms E F IH]; [destruct Hm'|]. destruct Hm' as [<-|Hm']; [exists s0; cbn; auto|]. destruct (IH Hm') as [s' [K1 K2]]. exists s'. cbn. auto. }
      destruct (Hc s' (or_intror Hs')) as [Hcs' Hss'].
      destruct (map_owner _ _ _ _ _ _ _ q Hcs Hss Hm E Hq) as (b & i & B1 & B2 & B3). destruct (map_owner _ _ _ _ _ _ _ q Hcs' Hss' Hm E' Hq') as (b' & i' & B1' & B2' & B3').
      assert (Hi : i < length cur) by (apply nth_error_Some; congruence). assert (Hi' : i' < length cur) by (apply nth_error_Some; congruence).
      assert (Nm : NoDup (concat mom)) by (rewrite Hm; apply seq_NoDup).
      assert (M : forall k, k < length cur -> In q (nth k mom []) -> length cur <= q).
      { intros k Hk Hqk. assert (In q (concat mom)); [|rewrite Hm in *; apply in_seq in H; lia]. apply in_concat. exists (nth k mom []). split; auto. apply nth_In. rewrite (cp_mom _ _ _ _ Hcs). auto. }
      assert (Eii : i = i').
      { destruct B3 as [->|B3], B3' as [->|B3']; auto; [specialize (M i' Hi' B3'); lia|specialize (M i Hi B3); lia|]. apply (concat_owner mom Nm i i' q); auto. }
      subst i'. assert (b = b') by congruence. subst b'. clear -Hn B1 B1' Hs'.
      assert (In b (concat (map fst subs))) by (apply in_concat; exists (fst s'); split; auto; apply in_map; auto).
      induction (fst s) as [|x l IHl]; [destruct B1|]. inversion Hn; subst. destruct B1 as [->|B1]; [|auto]. apply H2. apply in_or_app. auto.
  - assert (Len : length (concat ms) = length (concat (map fst subs)) + length (concat (map (fun s => concat (snd s)) subs))).
    { clear Hn Hl1 Hl2. induction F as [|s m subs ms E F IH]; [reflexivity|]. cbn [map concat]. rewrite !app_length. rewrite IH by (intros s' Hs'; apply Hc; right; auto).
      destruct (Hc s (or_introl eq_refl)) as [Hcs Hss]. destruct (c40_map _ _ _ _ _ Hcs Hss) as (m0 & E0 & L0 & _). rewrite E in E0. injection E0 as ->. lia. }
    rewrite seq_length, Len. lia.
  - intros q Hq. apply in_concat in Hq as [m [Hm' Hq]]. apply in_seq. split; [lia|].
    clear -F Hc Hm Hm' Hq. induction F as [|s m0 subs ms E F IH]; [destruct Hm'|]. destruct Hm' as [->|Hm'].
    + destruct (Hc s (or_introl eq_refl)) as [Hcs Hss]. apply (c40_injective _ _ _ _ _ _ _ Hcs Hss Hm E). auto.
    + apply IH; auto. intros s' Hs'. apply Hc. right. auto.
Qed.
(** The back map inverts the map. *)
Theorem c40_back dof m : NoDup m ->
  (forall i id, nth_error m i = Some id -> isInSub dof m id = true /\ backMap dof m id = i) /\ (forall id, ~ In id m -> isInSub dof m id = false).
Proof.
  assert (G : forall l a ins back, NoDup l ->
    let r := fold_left (fun s (p : nat * nat) => let '(ins, back) := s in (fun x => if x =? snd p then true else ins x, fun x => if x =? snd p then fst p else back x)) (combine (seq a (length l)) l) (ins, back) in
    (forall i id, nth_error l i = Some id -> fst r id = true /\ snd r id = a + i) /\ (forall id, ~ In id l -> fst r id = ins id /\ snd r id = back id)).
  { induction l as [|x l IH]; intros a ins back N; cbn [length seq combine fold_left fst snd].
    - split; [intros [|i] id H; discriminate|auto].
    - inversion N as [|? ? Nx N']; subst. destruct (IH (S a) (fun y => if y =? x then true else ins y) (fun y => if y =? x then a else back y) N') as [I1 I2]. cbn zeta in *. split.
      + intros [|i] id Hi; cbn in Hi.
        * injection Hi as <-. destruct (I2 x Nx) as [-> ->]. rewrite Nat.eqb_refl, Nat.add_0_r. auto.
        * destruct (I1 i id Hi) as [-> ->]. split; [auto|lia].
      + intros id Hid. destruct (I2 id ltac:(intros Hin; apply Hid; right; auto)) as [-> ->]. destruct (Nat.eqb_spec id x) as [->|]; [exfalso; apply Hid; left; auto|auto]. }
  intros N. unfold isInSub, backMap, fill. destruct (G m 0 (fun _ => false) (fun _ => 0) N) as [G1 G2]. split; [intros i id H; apply (G1 i id H)|intros id H; apply (G2 id H)].
Qed.
(** Three clusters; the second has a moment in both networks. *)
Definition exCur : list bound := [[0; 1]; [2; 4]; [5; 5]]%Z.
Definition exMom : list (list nat) := [[3]; [4]; []].
Example c40_ok : compatible exCur exMom [[5; 5]; [2; 4]]%Z [[]; [2]] /\ concat [[]; [2]] = seq 2 1 /\ concat exMom = seq 3 2 /\
  fromSubNetwork exCur exMom [[5; 5]; [2; 4]]%Z [[]; [2]] = Some [2; 1; 4] /\ fromSubNetwork exCur exMom [[0; 1]]%Z [[1]] = Some [0; 3].
Proof.
  assert (forall a b : bound, {a = b} + {a <> b}) by apply bound_dec.
  split; [|repeat split]. constructor; try reflexivity; try (repeat constructor; cbn; intuition discriminate).
  - cbn. intuition.
  - intros [|[|l]] [|[|[|i]]] b H1 H2; cbn in *; try discriminate; try (destruct i; discriminate); try (destruct l; discriminate); try congruence; reflexivity.
Qed.
(** A cluster of the sub-network which the full network does not have is passed over: all later
    unknowns move up, here the unknown of cluster [2, 4] is taken to that of [5, 5]. *)
Theorem c40_missing_refuted : exists cur mom sub subMom m, concat mom = seq (length cur) 0 /\ NoDup cur /\ NoDup sub /\
  fromSubNetwork cur mom sub subMom = Some m /\ exists l b i, nth_error sub l = Some b /\ In b cur /\ nth_error m l = Some i /\ nth_error cur i <> Some b.
Proof.
  exists [[2; 4]; [5; 5]]%Z, [[]; []], [[0; 1]; [2; 4]; [5; 5]]%Z, [[]; []; []], [0; 1].
  split; [reflexivity|]. split; [repeat constructor; cbn; intuition discriminate|]. split; [repeat constructor; cbn; intuition discriminate|]. split; [reflexivity|].
  exists 1, [2; 4]%Z, 1. repeat split; [cbn; auto|]. cbn. discriminate.
Qed.
Print Assumptions c40_moment_order.
Print Assumptions c40_map.
Print Assumptions c40_injective.
Print Assumptions c40_partition.
Print Assumptions c40_back.
Print Assumptions c40_missing_refuted.

(** *** C41 *)
(** The columns flagged in a row, from the definition of the export. *)
Definition flagged (row : list bool) : list nat := filter (fun j => nth j row false) (seq 0 (length row)).
Lemma pushRow_spec row : forall j entries count, pushRow j row entries count =
  (entries ++ map (Nat.add j) (flagged row), count + length (flagged row)).
Proof.
  induction row as [|b row IH]; intros j entries count; cbn [pushRow]; [unfold flagged; cbn; rewrite app_nil_r, Nat.add_0_r; reflexivity|].
  assert (E : flagged (b :: row) = (if b then [0] else []) ++ map S (flagged row)).
  { unfold flagged. cbn [length seq filter]. change (nth 0 (b :: row) false) with b. rewrite <- seq_shift. assert (X : forall l, filter (fun j => nth j (b :: row) false) (map S l) = map S (filter (fun j => nth j row false) l)).
    { induction l as [|x l IHl]; [reflexivity|]. cbn [map filter]. rewrite IHl. change (nth (S x) (b :: row) false) with (nth x row false). destruct (nth x row false); reflexivity. }
    rewrite X. destruct b; reflexivity. }
  rewrite E, map_app, map_map, app_length, map_length. destruct b; rewrite IH; cbn [map app length Nat.add].
  - rewrite <- app_assoc. cbn [app]. rewrite Nat.add_0_r. f_equal; [|lia]. f_equal. f_equal. apply map_ext. intros; lia.
  - f_equal. f_equal. apply map_ext. intros; lia.
Qed.
Lemma export_spec conns : forall rows entries, rows <> [] ->
  fold_left pushRows conns (rows, entries) =
    (rows ++ map (fun i => last rows 0 + list_sum (map (fun row => length (flagged row)) (firstn (S i) conns))) (seq 0 (length conns)), entries ++ concat (map flagged conns)).
Proof.
  induction conns as [|row conns IH]; intros rows entries Hr; cbn [fold_left length seq map concat]; [rewrite !app_nil_r; reflexivity|].
  unfold pushRows at 2. rewrite pushRow_spec. change (map (Nat.add 0) (flagged row)) with (map (fun x : nat => x) (flagged row)). rewrite map_id.
  rewrite IH by (destruct rows; discriminate). rewrite last_last. rewrite <- !app_assoc. cbn [app]. f_equal. f_equal. f_equal.
  - cbn. lia.
  - rewrite <- seq_shift, map_map. apply map_ext. intros i. cbn [firstn map]. change (list_sum (?a :: ?r)) with (a + list_sum r). lia.
Qed.
(** Row i occupies the entries from rows[i] to rows[i+1], which are its flagged columns in
    increasing order; the rows follow one another and fill the entries. *)
Theorem c41_rows conns rows entries : getConstantConnectivities conns = (rows, entries) ->
  length rows = S (length conns) /\ nth 0 rows 0 = 0 /\ nth (length conns) rows 0 = length entries /\
  forall i, i < length conns -> nth i rows 0 <= nth (S i) rows 0 <= length entries /\
    let slice := firstn (nth (S i) rows 0 - nth i rows 0) (skipn (nth i rows 0) entries) in
    StronglySorted lt slice /\ forall j, In j slice <-> nth j (nth i conns []) false = true.
Proof.
  unfold getConstantConnectivities. rewrite export_spec by discriminate. intros E. injection E as <- <-. cbn [last app].
  set (off := fun i => list_sum (map (fun row => length (flagged row)) (firstn i conns))).
  assert (Hrow : forall i, i <= length conns -> nth i (0 :: map (fun i => 0 + list_sum (map (fun row => length (flagged row)) (firstn (S i) conns))) (seq 0 (length conns))) 0 = off i).
  { intros [|i] Hi; [reflexivity|]. cbn [nth]. rewrite (nth_indep _ 0 ((fun i => 0 + list_sum (map (fun row => length (flagged row)) (firstn (S i) conns))) 0)) by (rewrite map_length, seq_length; lia).
    rewrite (map_nth (fun i => 0 + list_sum (map (fun row => length (flagged row)) (firstn (S i) conns)))). rewrite seq_nth by lia. reflexivity. }
  assert (Hoff : forall i, length (concat (map flagged (firstn i conns))) = off i).
  { intros i. unfold off. generalize (firstn i conns). intros l. induction l as [|x l IH]; [reflexivity|]. cbn [map concat]. rewrite app_length, IH. reflexivity. }
  assert (Hlen : length (concat (map flagged conns)) = off (length conns)). { rewrite <- Hoff, firstn_all. reflexivity. }
  split; [cbn [length]; rewrite map_length, seq_length; reflexivity|]. split; [reflexivity|]. split; [rewrite Hrow by lia; auto|].
  intros i Hi. rewrite !Hrow by lia.
  assert (Split : concat (map flagged conns) = concat (map flagged (firstn i conns)) ++ flagged (nth i conns []) ++ concat (map flagged (skipn (S i) conns))).
  { clear -Hi. revert i Hi. induction conns as [|x l IH]; intros [|i] Hi; cbn in Hi; try lia; [reflexivity|]. cbn [firstn map concat nth skipn]. rewrite <- app_assoc. f_equal. apply IH. lia. }
  assert (Step : off (S i) = off i + length (flagged (nth i conns []))).
  { rewrite <- !Hoff. rewrite (firstn_snoc _ _ i []) by auto. rewrite map_app, concat_app, app_length. cbn [map concat]. rewrite app_nil_r. reflexivity. }
  rewrite Split. rewrite !app_length, Hoff. split; [lia|]. cbn zeta.
  rewrite skipn_app, Hoff, Nat.sub_diag. rewrite (skipn_all2 (concat (map flagged (firstn i conns)))) by (rewrite Hoff; lia). cbn [app skipn].
  replace (off (S i) - off i) with (length (flagged (nth i conns []))) by lia. rewrite firstn_app, Nat.sub_diag, firstn_all. cbn [firstn]. rewrite app_nil_r. split.
  - unfold flagged. generalize 0. induction (length (nth i conns [])) as [|k IHk]; intros a; cbn [seq filter]; [constructor|].
    destruct (nth a (nth i conns []) false); auto. constructor; auto. apply Forall_forall. intros y Hy. apply filter_In in Hy as [Hy _]. apply in_seq in Hy. lia.
  - intros j. unfold flagged. rewrite filter_In, in_seq. split; [intros [_ ?]; auto|]. intros Hj. split; auto. split; [lia|]. cbn.
    destruct (Nat.lt_ge_cases j (length (nth i conns []))); auto. rewrite nth_overflow in Hj by auto. discriminate.
Qed.
Example c41_ok : getConstantConnectivities [[true; false; true]; [false; false; false]; [false; true; false]] = ([0; 2; 2; 3], [0; 2; 1]).
Proof. reflexivity. Qed.
Print Assumptions c41_rows.
