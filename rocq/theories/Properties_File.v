(** C36: time-step groups; C37: ragged data sets; C38: concentration vectors. *)
From Verif Require Import FileModel.
Open Scope R_scope.

(** ** C36 *)
Definition keyOf (x : addition) : key := fst x.
(** The last group is the one added last, whatever was added before. *)
Theorem c36_last f0 h x f : addAll f0 (h ++ [x]) = Some f ->
  (let '(c', l, t) := keyOf x in 0 <= c' /\ 0 <= l /\ 0 <= t)%Z -> getLastTimestepGroup f = Some (keyOf x).
Proof.
  revert f0. induction h as [|[[[c0 l0] t0] a0] h IH]; intros f0 H Hk; cbn [app addAll] in H.
  - destruct x as [[[c' l] t] a]. cbn [keyOf fst] in *. destruct Hk as [H1 [H2 H3]].
    assert (Ha : forall g k v, get g k <> None \/ True -> get (g ++ [(k, v)]) k <> None).
    { intros g k v _. induction g as [|[k' v'] g IHg]; cbn [app get]; [destruct (key_dec k k); congruence|]. destruct (key_dec k' k); congruence. }
    assert (Hs : forall g k v k', get g k <> None -> get (set g k' v) k <> None).
    { intros g k v k'. induction g as [|[k2 v2] g IHg]; cbn [set get]; auto. destruct (key_dec k2 k) as [->|].
      - destruct (key_dec k k') as [->|]; cbn [get]; destruct (key_dec _ _); congruence.
      - destruct (key_dec k2 k'); cbn [get]; destruct (key_dec _ _); congruence || auto. }
    unfold addTimestepGroup in H. destruct (get (groups f0) (c', l, t)) as [v|] eqn:E.
    + destruct (getTimestepGroup f0 l t) as [k'|]; [|discriminate]. injection H as <-. unfold getLastTimestepGroup. cbn [last groups].
      apply Z.leb_le in H1, H2, H3. rewrite H1, H2, H3. cbn [andb].
      specialize (Hs (groups f0) (c', l, t) a k'). rewrite E in Hs. destruct (get (set _ _ _) _); [reflexivity|]. exfalso. apply Hs; congruence.
    + injection H as <-. unfold getLastTimestepGroup. cbn [last groups].
      apply Z.leb_le in H1, H2, H3. rewrite H1, H2, H3. cbn [andb].
      specialize (Ha (groups f0) (c', l, t) a (or_intror I)). destruct (get (_ ++ _) _); congruence.
  - destruct (addTimestepGroup f0 c0 l0 t0 a0) as [[f' k]|]; [|discriminate]. eapply IH; eauto.
Qed.
Definition A (c' l t : Z) (x y z : R) : addition := (c', l, t, (x, y, z)).
Example c36_last_ok : exists f, addAll emptyGroup ([A 0 0 0 0 0 1; A 0 0 1 1 0 1] ++ [A 0 0 0 2 1 1]) = Some f /\
  getLastTimestepGroup f = Some (0, 0, 0)%Z.
Proof.
  eexists. split; [reflexivity|]. reflexivity.
Qed.
(** A file without time steps has no last group. *)
Theorem c36_none : getLastTimestepGroup emptyGroup = None.
Proof. reflexivity. Qed.
(** The spec of the contents: for each group the attributes of its last addition. *)
Inductive lastAttrs (k : key) : list addition -> option attrs -> Prop :=
| la_nil : lastAttrs k [] None
| la_this h a : lastAttrs k (h ++ [(k, a)]) (Some a)
| la_other h x o : keyOf x <> k -> lastAttrs k h o -> lastAttrs k (h ++ [x]) o.
Lemma addAll_app h : forall f x, addAll f (h ++ x) = match addAll f h with Some f' => addAll f' x | None => None end.
Proof.
  induction h as [|[[[c0 l0] t0] a0] h IH]; intros f x; [reflexivity|]. cbn [app addAll].
  destruct (addTimestepGroup f c0 l0 t0 a0) as [[f' k]|]; auto.
Qed.
Lemma get_app g k v k' : get (g ++ [(k, v)]) k' = match get g k' with Some a => Some a | None => if key_dec k k' then Some v else None end.
Proof. induction g as [|[k2 v2] g IH]; cbn [app get]; [reflexivity|]. destruct (key_dec k2 k'); auto. Qed.
Lemma get_set g k v k' : get g k <> None -> get (set g k v) k' = if key_dec k k' then Some v else get g k'.
Proof.
  induction g as [|[k2 v2] g IH]; cbn [set get]; [congruence|]. intros H. destruct (key_dec k2 k) as [->|N].
  - cbn [get]. destruct (key_dec k k'); reflexivity.
  - cbn [get]. rewrite IH by auto. destruct (key_dec k2 k') as [->|]; [|reflexivity]. destruct (key_dec k k'); congruence.
Qed.
(** Groups are added again only with control step 0. *)
Definition againZero (h : list addition) : Prop :=
  forall h1 h2 x y, h = h1 ++ x :: h2 -> In y h1 -> keyOf y = keyOf x -> fst (fst (keyOf x)) = 0%Z.
Lemma againZero_init h x : againZero (h ++ [x]) -> againZero h.
Proof. intros H h1 h2 y z E. apply (H h1 (h2 ++ [x]) y z). rewrite E, <- app_assoc. reflexivity. Qed.
Lemma againZero_last h x y : againZero (h ++ [x]) -> In y h -> keyOf y = keyOf x -> fst (fst (keyOf x)) = 0%Z.
Proof. intros H. apply (H h [] x y). reflexivity. Qed.
(** Full statement: without [againZero]. *)
Theorem c36_contents_partial h : againZero h ->
  exists f, addAll emptyGroup h = Some f /\ forall k o, lastAttrs k h o -> get (groups f) k = o.
Proof.
  intros Hz. enough (exists f, addAll emptyGroup h = Some f /\ (forall k, get (groups f) k <> None -> exists y, In y h /\ keyOf y = k) /\ forall k o, lastAttrs k h o -> get (groups f) k = o) as [f [H1 [_ H2]]] by eauto.
  induction h as [|x h IH] using rev_ind.
  - exists emptyGroup. split; [reflexivity|]. split; [cbn; congruence|]. intros k o H. inversion H as [|h a E|h x o' ? ? E]; [reflexivity| |]; destruct h; discriminate.
  - destruct (IH (againZero_init _ _ Hz)) as [f [E [Hin Hget]]]. rewrite addAll_app, E. destruct x as [[[c' l] t] a]. cbn [addAll]. unfold addTimestepGroup.
    destruct (get (groups f) (c', l, t)) as [v|] eqn:Eg.
    + destruct (Hin (c', l, t) ltac:(congruence)) as [y [Hy Ek]]. pose proof (againZero_last h (c', l, t, a) y Hz Hy Ek) as E0. cbn in E0. subst c'.
      unfold getTimestepGroup. rewrite Eg. eexists. split; [reflexivity|]. cbn [groups]. split.
      * intros k. rewrite get_set by congruence. destruct (key_dec (0%Z, l, t) k) as [<-|]; intros Hk.
        -- exists (0%Z, l, t, a). split; [apply in_or_app; right; left; auto|reflexivity].
        -- destruct (Hin k Hk) as [z [? ?]]. exists z. split; auto. apply in_or_app. auto.
      * intros k o Hl. rewrite get_set by congruence. inversion Hl as [X|h' a' X|h' x' o' Hne Hl' X].
        -- destruct h; discriminate.
        -- apply app_inj_tail in X. destruct X as [-> X]. injection X as <- <-. destruct (key_dec _ _); congruence.
        -- apply app_inj_tail in X. destruct X as [-> ->]. subst o'. cbn [keyOf fst] in Hne. destruct (key_dec (0%Z, l, t) k); [congruence|]. auto.
    + eexists. split; [reflexivity|]. cbn [groups]. split.
      * intros k. rewrite get_app. destruct (get (groups f) k) eqn:Ek.
        -- intros _. destruct (Hin k ltac:(congruence)) as [z [? ?]]. exists z. split; auto. apply in_or_app. auto.
        -- destruct (key_dec (c', l, t) k) as [<-|]; [|congruence]. intros _. exists (c', l, t, a). split; [apply in_or_app; right; left; auto|reflexivity].
      * intros k o Hl. rewrite get_app. inversion Hl as [X|h' a' X|h' x' o' Hne Hl' X].
        -- destruct h; discriminate.
        -- apply app_inj_tail in X. destruct X as [-> X]. injection X as -> ->. rewrite Eg. destruct (key_dec _ _); congruence.
        -- apply app_inj_tail in X. destruct X as [-> ->]. subst o'. cbn [keyOf fst] in Hne. rewrite (Hget k o Hl'). destruct o; auto. destruct (key_dec (c', l, t) k); congruence.
Qed.
(** The group handed back is the one asked for. *)
Theorem c36_designates_partial f c' l t a f' k : addTimestepGroup f c' l t a = Some (f', k) ->
  (get (groups f) (c', l, t) <> None -> c' = 0%Z) -> k = (c', l, t) /\ get (groups f') (c', l, t) = Some a.
Proof.
  unfold addTimestepGroup. intros H Hz. destruct (get (groups f) (c', l, t)) as [v|] eqn:E.
  - rewrite (Hz ltac:(congruence)) in *. unfold getTimestepGroup in H. rewrite E in H. injection H as <- <-. split; auto. cbn [groups].
    rewrite get_set by congruence. destruct (key_dec _ _); congruence.
  - injection H as <- <-. split; auto. cbn [groups]. rewrite get_app, E. destruct (key_dec _ _); congruence.
Qed.
Example c36_contents_ok : againZero [A 0 0 0 0 0 1; A 1 0 0 3 3 1; A 0 0 0 2 1 1].
Proof.
  intros h1 h2 x y E Hy Ek. destruct h1 as [|a1 [|a2 [|a3 [|a4 h1]]]]; cbn [app] in E.
  - destruct Hy.
  - injection E as <- <- _. destruct Hy as [<-|[]]. discriminate Ek.
  - injection E as <- <- <- _. reflexivity.
  - injection E as _ _ _ E. discriminate E.
  - injection E as _ _ _ E. discriminate E.
Qed.
(** With another control step: a null pointer is used if the group of control step 0 does
    not exist, otherwise this other group is updated and handed back. *)
Theorem c36_crash_refuted c' l t a b : c' <> 0%Z -> addAll emptyGroup [(c', l, t, a); (c', l, t, b)] = None.
Proof.
  intros H. cbn [addAll addTimestepGroup emptyGroup groups get app]. unfold addTimestepGroup, getTimestepGroup. cbn [groups get app].
  destruct (key_dec (c', l, t) (c', l, t)); [|congruence]. destruct (key_dec (c', l, t) (0%Z, l, t)); [congruence|reflexivity].
Qed.
Theorem c36_wrong_group_refuted c' l t a b b' : c' <> 0%Z ->
  exists f, addAll emptyGroup [(0%Z, l, t, a); (c', l, t, b); (c', l, t, b')] = Some f /\
    get (groups f) (0%Z, l, t) = Some b' /\ get (groups f) (c', l, t) = Some b.
Proof.
  intros H. unfold addAll, addTimestepGroup, getTimestepGroup, emptyGroup. repeat (cbn [groups get app set]; destruct (key_dec _ _); try congruence).
  all: cbn [groups get app set]; eexists; split; [reflexivity|]; cbn [groups get]; repeat (destruct (key_dec _ _); try congruence); auto.
Qed.
Example c36_wrong_group_ok : (2 <> 0)%Z. Proof. lia. Qed.
Print Assumptions c36_last.
Print Assumptions c36_contents_partial.
Print Assumptions c36_designates_partial.
Print Assumptions c36_crash_refuted.
Print Assumptions c36_wrong_group_refuted.

(** ** C37 *)
Section C37.
Variable T : Type.
Implicit Types (data pts : list (list T)) (parts : list (part T)).
Notation sizes := (map (@length T)).
Lemma list_sum_app' l1 l2 : list_sum (l1 ++ l2) = (list_sum l1 + list_sum l2)%nat.
Proof. apply list_sum_app. Qed.
Lemma starts_length cs : forall a, length (starts a cs) = length cs.
Proof. induction cs as [|k cs IH]; intros a; cbn; auto. Qed.
Lemma starts_app c1 c2 : forall a, starts a (c1 ++ c2) = starts a c1 ++ starts (a + list_sum c1) c2.
Proof.
  induction c1 as [|k c1 IH]; intros a; cbn [app starts list_sum fold_right]; [rewrite Nat.add_0_r; reflexivity|].
  rewrite IH. cbn [app]. do 3 f_equal. unfold list_sum. lia.
Qed.
Lemma starts_shift b cs : forall a, map (fun i => (i + b)%nat) (starts a cs) = starts (a + b) cs.
Proof. induction cs as [|k cs IH]; intros a; cbn [starts map]; [reflexivity|]. rewrite IH. do 2 f_equal. lia. Qed.
Lemma starts_unshift b cs : forall a, (b <= a)%nat -> map (fun v => (v - b)%nat) (starts a cs) = starts (a - b) cs.
Proof. induction cs as [|k cs IH]; intros a H; cbn [starts map]; [reflexivity|]. rewrite IH by lia. do 2 f_equal. lia. Qed.
Definition bounds (a : nat) (cs : list nat) : list nat := starts a cs ++ [(a + list_sum cs)%nat].
Lemma bounds_cons a k cs : bounds a (k :: cs) = a :: bounds (a + k) cs.
Proof. unfold bounds. cbn [starts app list_sum fold_right]. do 3 f_equal. unfold list_sum. lia. Qed.
Lemma bounds_app c1 c2 a : bounds a (c1 ++ c2) = starts a c1 ++ bounds (a + list_sum c1) c2.
Proof. unfold bounds. rewrite starts_app, <- app_assoc, list_sum_app', Nat.add_assoc. reflexivity. Qed.
Lemma bounds_first c1 c2 : forall a, firstn (length c1 + 1) (bounds a (c1 ++ c2)) = bounds a c1.
Proof.
  induction c1 as [|k c1 IH]; intros a.
  - cbn [length Nat.add app]. unfold bounds at 2. cbn [starts app list_sum fold_right]. destruct c2 as [|k c2]; [reflexivity|]. rewrite bounds_cons. cbn [firstn]. f_equal. lia.
  - cbn [length Nat.add app]. rewrite !bounds_cons. cbn [firstn]. rewrite IH. reflexivity.
Qed.
Lemma bounds_nth cs : forall a i, (i <= length cs)%nat -> nth i (bounds a cs) 0%nat = (a + list_sum (firstn i cs))%nat.
Proof.
  induction cs as [|k cs IH]; intros a i H.
  - cbn [length] in H. assert (i = 0)%nat by lia. subst i. reflexivity.
  - rewrite bounds_cons. destruct i as [|i]; [cbn; lia|]. cbn [nth firstn]. rewrite IH by (cbn in H; lia). cbn [list_sum fold_right]. unfold list_sum. lia.
Qed.
Lemma bounds_length a cs : length (bounds a cs) = (length cs + 1)%nat.
Proof. unfold bounds. rewrite app_length, starts_length. reflexivity. Qed.
Lemma bounds_last a cs : List.last (bounds a cs) 0%nat = (a + list_sum cs)%nat.
Proof. unfold bounds. apply last_last. Qed.
Lemma sum_sizes data : list_sum (sizes data) = length (concat data).
Proof. induction data as [|d data IH]; [reflexivity|]. cbn [map list_sum fold_right concat]. rewrite app_length, <- IH. reflexivity. Qed.
Lemma numItems data : data <> [] -> myNumItems T data = Some (length (concat data)).
Proof.
  intros H. unfold myNumItems, findNumItemsByPoint. destruct data as [|d0 r0]; [congruence|]. set (data := d0 :: r0) in *. f_equal.
  destruct (@exists_last _ data H) as [init [d E]]. rewrite E. rewrite map_app, starts_app. cbn [map starts]. rewrite !last_last.
  rewrite concat_app, app_length, <- sum_sizes. cbn [concat]. rewrite app_nil_r. lia.
Qed.
Lemma slab_next {A} (done l : list A) k : (length l <= k)%nat ->
  writeSlab (map Some done ++ repeat None k) (length done) l = map Some (done ++ l) ++ repeat None (k - length l).
Proof.
  intros H. unfold writeSlab. rewrite <- (map_length Some done) at 1. rewrite firstn_app, firstn_all, Nat.sub_diag. cbn [firstn]. rewrite app_nil_r.
  rewrite skipn_app. rewrite skipn_all2 by (rewrite map_length; lia). rewrite map_length. cbn [app]. rewrite map_app, <- app_assoc. f_equal. f_equal.
  replace (length done + length l - length done)%nat with (length l) by lia.
  clear done. revert k H. induction l as [|x l IH]; intros k H; [cbn; f_equal; lia|].
  cbn [length] in *. destruct k as [|k]; [lia|]. cbn [repeat skipn Nat.sub]. apply IH. lia.
Qed.
(** The spec of a decomposition: consecutive pieces starting at a given point. *)
Fixpoint decomposed (from : nat) parts : Prop :=
  match parts with [] => True | (b, data) :: r => b = from /\ data <> [] /\ decomposed (from + length data) r end.
Definition whole parts : list (list T) := flat_map snd parts.
Lemma sizes_all parts : list_sum (map (fun p => list_sum (findNumItemsByPoint T (snd p))) parts) = length (concat (whole parts)).
Proof.
  induction parts as [|[b data] r IH]; [reflexivity|]. cbn [map list_sum fold_right snd whole flat_map]. rewrite concat_app, app_length.
  fold (whole r). unfold list_sum in IH at 1. rewrite IH. unfold findNumItemsByPoint. rewrite sum_sizes. reflexivity.
Qed.
Lemma points_all parts : list_sum (map (fun p => length (snd p)) parts) = length (whole parts).
Proof. induction parts as [|[b data] r IH]; [reflexivity|]. cbn [map list_sum fold_right snd whole flat_map]. rewrite app_length. fold (whole r). unfold list_sum in IH. rewrite IH. reflexivity. Qed.
Lemma write_from parts : forall (done : list (list T)) total, parts <> [] -> decomposed (length done) parts -> total = length (concat (done ++ whole parts)) ->
  writeFrom T (combine parts (exscan (length (concat done)) (map (fun p => length (concat (snd p))) parts))) total
    (DataSet T (map Some (concat done) ++ repeat None (length (concat (whole parts)))) (map Some (starts 0 (sizes done)) ++ repeat None (length (whole parts) + 1))) =
  DataSet T (map Some (concat (done ++ whole parts))) (map Some (bounds 0 (sizes (done ++ whole parts)))).
Proof.
  induction parts as [|[b data] r IH]; intros done total Hne Hd Ht; [congruence|]. destruct Hd as [-> [Hdata Hr]].
  cbn [whole flat_map snd map exscan combine writeFrom] in *. fold (whole r) in *. unfold findNumItemsByPoint, writeOne. cbn [items index].
  rewrite concat_app, app_length. rewrite slab_next by lia. rewrite <- concat_app.
  replace (length (concat data) + length (concat (whole r)) - length (concat data))%nat with (length (concat (whole r))) by lia.
  unfold findNumItemsByPoint. rewrite starts_shift. cbn [Nat.add].
  assert (Es : starts 0 (sizes done) ++ starts (length (concat done)) (sizes data) = starts 0 (sizes (done ++ data))).
  { rewrite map_app, starts_app, sum_sizes. reflexivity. }
  destruct r as [|p r].
  - cbn [combine writeFrom whole flat_map concat repeat length]. rewrite !app_nil_r.
    replace (length done) with (length (starts 0 (sizes done))) by (rewrite starts_length, map_length; reflexivity).
    rewrite slab_next by (rewrite app_length, starts_length, map_length; cbn [length]; lia).
    replace (_ - _)%nat with 0%nat by (rewrite !app_length, starts_length, map_length; cbn [length]; lia). cbn [repeat]. rewrite !app_nil_r.
    rewrite app_assoc, Es. unfold bounds. rewrite Ht, sum_sizes. cbn [whole flat_map Nat.add]. rewrite app_nil_r. reflexivity.
  - cbv iota. replace (length done) with (length (starts 0 (sizes done))) by (rewrite starts_length, map_length; reflexivity).
    rewrite app_nil_r. rewrite slab_next by (rewrite app_length, starts_length, map_length; lia). rewrite Es.
    replace (_ - _)%nat with (length (whole (p :: r)) + 1)%nat by (rewrite app_length, starts_length, map_length; lia).
    rewrite <- app_length, <- concat_app. rewrite app_assoc. apply IH.
    + discriminate.
    + rewrite app_length. exact Hr.
    + rewrite Ht, app_assoc. reflexivity.
Qed.
Lemma written parts : parts <> [] -> decomposed 0 parts ->
  writeRagged T parts = Some (DataSet T (map Some (concat (whole parts))) (map Some (bounds 0 (sizes (whole parts))))).
Proof.
  intros Hne Hd. unfold writeRagged.
  assert (E : forall from ps, decomposed from ps -> allSome (map (fun p => myNumItems T (snd p)) ps) = Some (map (fun p : part T => length (concat (snd p))) ps)).
  { clear. intros from ps. revert from. induction ps as [|[b data] r IH]; intros from H; [reflexivity|]. destruct H as [_ [H1 H2]].
    cbn [map snd]. rewrite numItems by auto. cbn [allSome]. rewrite (IH _ H2). reflexivity. }
  rewrite (E 0%nat parts Hd). cbv zeta. rewrite sizes_all, points_all. f_equal. apply (write_from parts [] _ Hne Hd eq_refl).
Qed.
Lemma allSome_map {A} (l : list A) : allSome (map Some l) = Some l.
Proof. induction l as [|x l IH]; [reflexivity|]. cbn [map allSome]. rewrite IH. reflexivity. Qed.
Lemma readSlab_map {A} (l : list A) off cnt : (off + cnt <= length l)%nat -> readSlab (map Some l) off cnt = Some (firstn cnt (skipn off l)).
Proof.
  intros H. unfold readSlab. rewrite map_length. destruct (Nat.leb_spec (off + cnt) (length l)); [|lia].
  rewrite <- allSome_map. f_equal. rewrite <- firstn_map. f_equal. clear. revert off. induction l as [|x l IH]; intros off; [destruct off; reflexivity|]. destruct off; [reflexivity|]. cbn [map skipn]. apply IH.
Qed.
Lemma take_seq {A} (l : list A) n : forall b, (b + n <= length l)%nat -> allSome (map (fun j => nth_error l (b + j)) (seq 0 n)) = Some (firstn n (skipn b l)).
Proof.
  induction n as [|n IH]; intros b H; [reflexivity|]. cbn [seq map allSome]. rewrite Nat.add_0_r.
  destruct (nth_error l b) as [x|] eqn:E; [|apply nth_error_None in E; lia]. rewrite <- seq_shift, map_map.
  rewrite (map_ext _ (fun j => nth_error l (S b + j))) by (intros j; f_equal; lia). rewrite IH by lia. cbn [option_map]. f_equal.
  apply nth_error_split in E. destruct E as [l1 [l2 [-> <-]]]. clear.
  induction l1 as [|y l1 IH]; [reflexivity|]. cbn [length app skipn] in *. exact IH.
Qed.
Lemma point_of pts : forall i, (i < length pts)%nat ->
  firstn (length (nth i pts [])) (skipn (list_sum (firstn i (sizes pts))) (concat pts)) = nth i pts [].
Proof.
  induction pts as [|p pts IH]; intros i H; [cbn in H; lia|]. destruct i as [|i].
  - cbn [nth firstn map list_sum fold_right skipn concat]. rewrite firstn_app, firstn_all, Nat.sub_diag. cbn [firstn]. apply app_nil_r.
  - cbn [nth firstn map list_sum fold_right concat]. rewrite skipn_app, skipn_all2 by lia. cbn [app].
    replace (length p + fold_right Nat.add 0 (firstn i (sizes pts)) - length p)%nat with (list_sum (firstn i (sizes pts))) by (unfold list_sum; lia).
    apply IH. cbn in H. lia.
Qed.
Lemma seq_nth_self {A} (l : list A) d : map (fun i => nth i l d) (seq 0 (length l)) = l.
Proof. induction l as [|x l IH]; [reflexivity|]. cbn [length seq map nth]. f_equal. rewrite <- seq_shift, map_map. exact IH. Qed.
Lemma firstn_S_sum (cs : list nat) i : (i < length cs)%nat -> list_sum (firstn (i + 1) cs) = (list_sum (firstn i cs) + nth i cs 0)%nat.
Proof. revert i. induction cs as [|k cs IH]; intros i H; [cbn in H; lia|]. destruct i as [|i]; cbn [Nat.add firstn list_sum fold_right nth]; [lia|]. cbn in H. specialize (IH i ltac:(lia)). unfold list_sum in IH. lia. Qed.
(** Whatever the decomposition of the writers, every range of points is read back exactly. *)
Theorem c37_roundtrip parts baseX numX : parts <> [] -> decomposed 0 parts -> (baseX + numX <= length (whole parts))%nat ->
  exists ds, writeRagged T parts = Some ds /\ readRagged T ds baseX numX = Some (firstn numX (skipn baseX (whole parts))).
Proof using.
  intros Hne Hd Hr. eexists. split; [apply written; auto|]. set (all := whole parts) in *.
  set (pre := firstn baseX all). set (pts := firstn numX (skipn baseX all)). set (post := skipn numX (skipn baseX all)).
  assert (Eall : all = pre ++ pts ++ post). { unfold pre, pts, post. rewrite !firstn_skipn. reflexivity. }
  assert (Lpre : length pre = baseX). { unfold pre. apply firstn_length_le. lia. }
  assert (Lpts : length pts = numX). { unfold pts. apply firstn_length_le. rewrite skipn_length. lia. }
  set (B := list_sum (sizes pre)).
  unfold readRagged. cbn [items index].
  rewrite readSlab_map by (rewrite bounds_length, map_length; lia).
  assert (Eg : firstn (numX + 1) (skipn baseX (bounds 0 (sizes all))) = bounds B (sizes pts)).
  { rewrite Eall, map_app, map_app, bounds_app. rewrite skipn_app, skipn_all2 by (rewrite starts_length, map_length; lia).
    rewrite starts_length, map_length, Lpre, Nat.sub_diag. cbn [app skipn Nat.add]. fold B.
    rewrite <- Lpts, <- (map_length (@length T) pts). apply bounds_first. }
  rewrite Eg. rewrite (bounds_nth (sizes pts) B 0) by lia. cbn [firstn list_sum fold_right]. rewrite Nat.add_0_r. rewrite bounds_last.
  replace (B + list_sum (sizes pts) - B)%nat with (length (concat pts)) by (rewrite <- sum_sizes; lia).
  assert (Ec : concat all = concat pre ++ concat pts ++ concat post) by (rewrite Eall, !concat_app; reflexivity).
  assert (LB : length (concat pre) = B) by (unfold B; rewrite sum_sizes; reflexivity).
  rewrite readSlab_map by (rewrite Ec, !app_length; lia).
  assert (Ef : firstn (length (concat pts)) (skipn B (concat all)) = concat pts).
  { rewrite Ec, skipn_app, skipn_all2 by lia. rewrite LB, Nat.sub_diag. cbn [app skipn]. rewrite firstn_app, firstn_all, Nat.sub_diag. cbn [firstn]. apply app_nil_r. }
  rewrite Ef. cbv zeta. rewrite bounds_length, map_length, Lpts. replace (numX + 1 - 1)%nat with numX by lia.
  assert (El : map (fun v => (v - B)%nat) (bounds B (sizes pts)) = bounds 0 (sizes pts)).
  { unfold bounds. rewrite map_app, starts_unshift by lia. rewrite Nat.sub_diag. cbn [map Nat.add]. do 3 f_equal. lia. }
  rewrite El. transitivity (allSome (map (fun i => Some (nth i pts [])) (seq 0 numX))).
  2:{ rewrite <- (map_map (fun i => nth i pts []) Some), allSome_map. f_equal. rewrite <- Lpts. apply seq_nth_self. }
  f_equal. apply map_ext_in. intros i Hi. apply in_seq in Hi.
  assert (Lm : length (sizes pts) = numX) by (rewrite map_length; auto).
  rewrite !bounds_nth by lia. cbn [Nat.add]. rewrite firstn_S_sum by lia.
  assert (En : nth i (sizes pts) 0%nat = length (nth i pts [])). { change 0%nat with (@length T []). apply map_nth. }
  rewrite En. match goal with |- context [seq 0 ?m] => replace m with (length (nth i pts [])) by lia end.
  rewrite take_seq; [f_equal; apply point_of; lia|]. rewrite <- En, <- firstn_S_sum by lia. rewrite <- sum_sizes.
  rewrite <- (firstn_skipn (i + 1) (sizes pts)) at 2. rewrite list_sum_app'. lia.
Qed.
(** Hence for any decomposition of the readers each reader gets its points. *)
Theorem c37_any_readers parts (readers : list (nat * nat)) : parts <> [] -> decomposed 0 parts ->
  (forall r, In r readers -> (fst r + snd r <= length (whole parts))%nat) ->
  exists ds, writeRagged T parts = Some ds /\
    map (fun r => readRagged T ds (fst r) (snd r)) readers = map (fun r => Some (firstn (snd r) (skipn (fst r) (whole parts)))) readers.
Proof using.
  intros Hne Hd Hr. eexists. split; [apply written; auto|]. apply map_ext_in. intros r Hin.
  destruct (c37_roundtrip parts (fst r) (snd r) Hne Hd (Hr r Hin)) as [ds [E1 E2]]. rewrite written in E1 by auto. injection E1 as <-. exact E2.
Qed.
(** A process without grid points: the code takes the last element of an empty vector. *)
Theorem c37_empty_refuted parts b : In (b, []) parts -> writeRagged T parts = None.
Proof using.
  intros H. unfold writeRagged. replace (allSome _) with (@None (list nat)); [reflexivity|]. symmetry.
  induction parts as [|p r IH]; [destruct H|]. cbn [map allSome]. destruct H as [-> | H]; [reflexivity|]. destruct (myNumItems T (snd p)); [|reflexivity].
  rewrite IH by auto. reflexivity.
Qed.
End C37.
Example c37_ok : let parts := [(0%nat, [[1%nat; 2%nat]; []]); (2%nat, [[3%nat]; [4%nat; 5%nat]])] in
  parts <> [] /\ decomposed nat 0 parts /\ (1 + 3 <= length (whole nat parts))%nat /\
  exists ds, writeRagged nat parts = Some ds /\ readRagged nat ds 1 3 = Some [[]; [3%nat]; [4%nat; 5%nat]].
Proof. cbv zeta. split; [discriminate|]. split; [cbn; repeat split; discriminate|]. split; [cbn; lia|]. eexists. split; reflexivity. Qed.
Print Assumptions c37_roundtrip.
Print Assumptions c37_any_readers.
Print Assumptions c37_empty_refuted.

(** ** C38 *)
Lemma setEntry_nth sol l v i : (l < length sol)%nat -> nth i (setEntry sol l v) 0 = if Nat.eqb i l then v else nth i sol 0.
Proof.
  intros H. unfold setEntry. destruct (Nat.ltb_spec l (length sol)); [|lia]. clear H0. revert l i H.
  induction sol as [|x sol IH]; intros l i H; [cbn in H; lia|]. destruct l as [|l].
  - cbn [firstn app skipn]. destruct i; reflexivity.
  - cbn [firstn app skipn]. destruct i as [|i]; [reflexivity|]. cbn [nth Nat.eqb]. apply IH. cbn in H. lia.
Qed.
Lemma setEntry_length sol l v : length (setEntry sol l v) = length sol.
Proof.
  unfold setEntry. destruct (Nat.ltb_spec l (length sol)) as [H|H].
  - rewrite !app_length, firstn_length, skipn_length. cbn. lia.
  - cbn [app]. rewrite app_length, firstn_length, skipn_length. lia.
Qed.
Lemma export_range a : forall s, Forall (fun lv => (s <= fst lv)%nat) (filter (fun lv : nat * R => if Rlt_dec cutoff (Rabs (snd lv)) then true else false) (combine (seq s (length a)) a)).
Proof.
  induction a as [|x a IH]; intros s; [constructor|]. cbn [length seq combine filter snd]. specialize (IH (S s)).
  assert (H : Forall (fun lv => (s <= fst lv)%nat) (filter (fun lv : nat * R => if Rlt_dec cutoff (Rabs (snd lv)) then true else false) (combine (seq (S s) (length a)) a))).
  { eapply Forall_impl; [|exact IH]. intros [l v]. cbn. lia. }
  destruct (Rlt_dec cutoff (Rabs x)); [constructor; [cbn; lia|auto]|auto].
Qed.
Lemma import_from a : forall s sol i, (s + length a <= length sol)%nat ->
  nth i (importPoint sol (filter (fun lv : nat * R => if Rlt_dec cutoff (Rabs (snd lv)) then true else false) (combine (seq s (length a)) a))) 0 =
  if andb (s <=? i)%nat (i <? s + length a)%nat then (if Rlt_dec cutoff (Rabs (nth (i - s) a 0)) then nth (i - s) a 0 else nth i sol 0) else nth i sol 0.
Proof.
  induction a as [|x a IH]; intros s sol i H.
  - cbn [length seq combine filter importPoint fold_left]. destruct (Nat.leb_spec s i); [destruct (Nat.ltb_spec i (s + 0)); [lia|]|]; reflexivity.
  - cbn [length seq combine filter snd]. cbn [length] in H.
    assert (E : forall sol', length sol' = length sol -> (nth i sol' 0 = nth i sol 0 \/ i = s) ->
      nth i (importPoint sol' (filter (fun lv : nat * R => if Rlt_dec cutoff (Rabs (snd lv)) then true else false) (combine (seq (S s) (length a)) a))) 0 =
      if Nat.eqb i s then nth i sol' 0 else if andb (s <=? i)%nat (i <? s + S (length a))%nat then (if Rlt_dec cutoff (Rabs (nth (i - s) (x :: a) 0)) then nth (i - s) (x :: a) 0 else nth i sol 0) else nth i sol 0).
    { intros sol' L Hi. rewrite IH by lia. destruct (Nat.eqb_spec i s) as [->|N].
      - destruct (Nat.leb_spec (S s) s); [lia|]. reflexivity.
      - destruct Hi as [Hi|]; [|congruence]. rewrite Hi. destruct (Nat.leb_spec (S s) i), (Nat.leb_spec s i); cbn [andb]; try lia; auto.
        replace (S s + length a)%nat with (s + S (length a))%nat by lia. destruct (Nat.ltb_spec i (s + S (length a))); auto.
        replace (i - s)%nat with (S (i - S s)) by lia. reflexivity. }
    destruct (Rlt_dec cutoff (Rabs x)) as [Hx|Hx].
    + match goal with |- context [importPoint sol ((s, x) :: ?r)] => change (importPoint sol ((s, x) :: r)) with (importPoint (setEntry sol s x) r) end. rewrite E.
      * destruct (Nat.eqb_spec i s) as [->|N]; [|reflexivity]. rewrite setEntry_nth by lia. rewrite Nat.eqb_refl, Nat.leb_refl, Nat.sub_diag. cbn [andb nth].
        destruct (Nat.ltb_spec s (s + S (length a))); [|lia]. destruct (Rlt_dec cutoff (Rabs x)); [reflexivity|contradiction].
      * apply setEntry_length.
      * rewrite setEntry_nth by lia. destruct (Nat.eqb_spec i s); auto.
    + rewrite E by auto. destruct (Nat.eqb_spec i s) as [->|N]; [|reflexivity]. rewrite Nat.leb_refl, Nat.sub_diag. cbn [andb nth].
      destruct (Nat.ltb_spec s (s + S (length a))); [|lia]. destruct (Rlt_dec cutoff (Rabs x)); [contradiction|reflexivity].
Qed.
(** What the receiver holds afterwards, at every entry. *)
Theorem c38_entry a sol l : length a = length sol ->
  nth l (importPoint sol (exportPoint a)) 0 = if Rlt_dec 1e-16 (Rabs (nth l a 0)) then nth l a 0 else nth l sol 0.
Proof.
  intros H. unfold exportPoint. rewrite import_from by lia. rewrite Nat.sub_0_r. cbn [Nat.leb andb Nat.add].
  destruct (Nat.ltb_spec l (length a)); [reflexivity|]. rewrite (nth_overflow a) by auto. rewrite Rabs_R0. destruct (Rlt_dec _ 0); [|reflexivity].
  exfalso. unfold cutoff in *. lra.
Qed.
(** All grid points: concentrations above the cut-off are restored; a receiver whose small
    entries were below the cut-off afterwards agrees everywhere up to twice the cut-off. *)
Theorem c38_restored conc prior i l : length prior = length conc -> (forall j, length (nth j prior []) = length (nth j conc [])) ->
  1e-16 < Rabs (nth l (nth i conc []) 0) ->
  nth l (nth i (setConcVector prior (getConcVector conc)) []) 0 = nth l (nth i conc []) 0.
Proof.
  intros HL Hl Hc. unfold setConcVector, getConcVector.
  assert (E : forall j, nth j (map (fun sv : list R * list (nat * R) => importPoint (fst sv) (snd sv)) (combine prior (map exportPoint conc))) [] = importPoint (nth j prior []) (exportPoint (nth j conc []))).
  { clear -HL. revert prior HL. induction conc as [|x conc IH]; intros [|y prior] HL j; try discriminate; [destruct j; reflexivity|].
    cbn [map combine]. destruct j as [|j]; [reflexivity|]. cbn [nth]. apply IH. injection HL as HL. auto. }
  rewrite E, c38_entry by auto. destruct (Rlt_dec _ _); [reflexivity|contradiction].
Qed.
Theorem c38_close_partial a sol l eps : length a = length sol -> Rabs (nth l sol 0) <= eps ->
  Rabs (nth l (importPoint sol (exportPoint a)) 0 - nth l a 0) <= 1e-16 + eps.
Proof.
  intros H Hs. assert (0 <= eps) by (pose proof (Rabs_pos (nth l sol 0)); lra). rewrite c38_entry by auto.
  destruct (Rlt_dec _ (Rabs (nth l a 0))) as [|N].
  - rewrite Rminus_diag_eq by auto. rewrite Rabs_R0. lra.
  - apply Rnot_lt_le in N. revert N Hs. unfold Rabs. repeat destruct (Rcase_abs _); lra.
Qed.
Example c38_ok : let conc := [[3; 0]; [1e-17; 2]] in let prior := [[5; 6]; [7; 8]] in
  length prior = length conc /\ (forall j, length (nth j prior []) = length (nth j conc [])) /\ 1e-16 < Rabs (nth 1 (nth 1 conc []) 0).
Proof.
  cbv zeta. split; [reflexivity|]. split; [intros [|[|[|j]]]; reflexivity|]. cbn [nth]. rewrite Rabs_pos_eq; lra.
Qed.
(** Entries which the sender does not list keep their previous value. *)
Theorem c38_stale_refuted stale : exists sol, nth 1 (importPoint sol (exportPoint [1; 0])) 0 = stale /\ length sol = 2%nat.
Proof.
  exists [0; stale]. split; [|reflexivity]. rewrite c38_entry by reflexivity. cbn [nth]. rewrite Rabs_R0. destruct (Rlt_dec _ 0); [|reflexivity].
  exfalso. unfold cutoff in *. lra.
Qed.
(** The loop which takes over the temperatures is never entered: i = -1 becomes the largest
    unsigned number. The network keeps the temperatures it had. *)
Theorem c38_temperature_refuted width old temps : (0 < width)%Z -> (Z.of_nat (length temps) <= 2 ^ width)%Z ->
  importTemperatures width old temps = old.
Proof.
  intros Hw Hl. unfold importTemperatures. replace (visited width (Z.of_nat (length temps) - 2) (length temps) (-1)) with (@nil Z); [reflexivity|].
  destruct (length temps) as [|n]; [reflexivity|]. cbn [visited]. replace (unsignedOf width (-1)) with (2 ^ width - 1)%Z.
  - destruct (Z.leb_spec (2 ^ width - 1) (Z.of_nat (S n) - 2)); [lia|reflexivity].
  - unfold unsignedOf. assert (1 < 2 ^ width)%Z by (apply Z.pow_gt_1; lia). rewrite <- (Z_mod_plus_full (-1) 1). rewrite Z.mod_small; lia.
Qed.
Example c38_temperature_ok : importTemperatures 32 [300; 300; 300] [900; 900; 900] = [300; 300; 300].
Proof. apply c38_temperature_refuted; [lia|]. cbn. lia. Qed.
Print Assumptions c38_entry.
Print Assumptions c38_restored.
Print Assumptions c38_close_partial.
Print Assumptions c38_stale_refuted.
Print Assumptions c38_temperature_refuted.
