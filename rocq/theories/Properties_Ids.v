(** Properties C15 (chained views) and C16 (moment ids). *)
From Coq Require Import Permutation.
From Verif Require Import ChainProofs.

(** * C15 *)
(** After construction from the views every element is visited exactly once, in
    order, and each begin index is the number of elements before it. *)
Theorem c15_constructed : forall A (views : list (list A)),
  let c := construct 0 views in
  forEach c = map (@Called A) (concat views) /\
  (forall k v i a, nth_error views k = Some v -> nth_error v i = Some a ->
     exists b, nth_error (getElementBeginIndices c) k = Some b /\
       b = length (concat (firstn k views)) /\ apply c (b + i) = Called a).
Proof.
  intros A views c. pose proof (construct_good 0 views) as G. cbn [Nat.add] in G. fold c in G.
  assert (EV : getViews c = views) by apply getViews_construct. split.
  - rewrite <- EV at 1. rewrite (forEach_full _ G); rewrite EV; auto.
  - intros k v i a Hk Hi. exists (length (concat (firstn k views))).
    assert (Hcat : concat views = concat (firstn k views) ++ v ++ concat (skipn (S k) views)).
    { clear -Hk. revert k Hk. induction views as [|w vs IH]; intros [|k] H; try discriminate; cbn in *.
      - injection H as ->. reflexivity.
      - rewrite (IH _ H) at 1. rewrite <- app_assoc. reflexivity. }
    assert (Hi' : i < length v) by (apply nth_error_Some; congruence).
    split; [|split; [reflexivity|]].
    + unfold c. clear -Hk. change (length (concat (firstn k views))) with (0 + length (concat (firstn k views))).
      revert k Hk. generalize 0. induction views as [|w vs IH]; intros b [|k] H; try discriminate; cbn in *.
      * f_equal. lia.
      * rewrite (IH _ _ H), app_length. f_equal. lia.
    + change (apply c (0 + (length (concat (firstn k views)) + i)) = Called a).
      rewrite (@apply_spec A c _ _ G); rewrite EV.
      * replace (0 + _ <? _) with true by (symmetry; apply Nat.ltb_lt; rewrite Hcat, !app_length; lia).
        rewrite Bool.orb_true_r. unfold lookup. rewrite Hcat, nth_error_app2 by lia.
        replace (_ + i - _) with i by lia. rewrite nth_error_app1 by exact Hi'. rewrite Hi. reflexivity.
      * rewrite Hcat, !app_length. lia.
Qed.
Print Assumptions c15_constructed.

(** After any history of setView calls: exactly what is visited. The lists before
    the last one are always visited in full; of the last one only the elements
    whose flat index is below the total number of elements at construction. *)
Theorem c15_history : forall A (views : list (list A)) h,
  let c := setViews (construct 0 views) h in
  let p := concat (removelast (getViews c)) in let l := last (getViews c) [] in
  let reach := length (concat views) - length p in
  views <> [] ->
  forEach c = map (@Called A) (p ++ firstn reach l) ++ repeat NotCalled (length l - reach).
Proof.
  intros A views h c p l reach Hne.
  apply forEach_gen.
  - apply setViews_good. apply (construct_good 0 views).
  - assert (L : forall c0 : chain A, getViews c0 <> [] -> forall k v, getViews (setView c0 k v) <> []).
    { intros [x|v b t] H [|k] w; cbn in *; auto; discriminate. }
    unfold c. assert (H0 : getViews (construct 0 views) <> []) by (rewrite getViews_construct; exact Hne).
    revert H0. generalize (construct 0 views). clear -L. induction h as [|[k v] h IH]; intros c0 H0; [exact H0|].
    apply IH. apply L. exact H0.
Qed.
Print Assumptions c15_history.

(** The property, when the history never ends with more elements than the
    collection was constructed with. Missing: growth (refuted below). *)
Theorem c15_history_partial : forall A (views : list (list A)) h,
  let c := setViews (construct 0 views) h in
  length (concat (getViews c)) <= length (concat views) ->
  forEach c = map (@Called A) (concat (getViews c)).
Proof.
  intros A views h c H. apply (@forEach_full A c (length (concat views))); [|exact H].
  apply setViews_good. apply (construct_good 0 views).
Qed.
Print Assumptions c15_history_partial.

(** A default-constructed collection filled by setView never visits the last
    list; the collection also grows wrongly. *)
Theorem c15_history_refuted :
  (exists h : list (nat * list nat), let c := setViews (defaultChain nat 2) h in
     getViews c = [[10; 11]; [20; 21]] /\ getNumberOfElements c = 4 /\
     forEach c = [Called 10; Called 11; NotCalled; NotCalled]) /\
  (exists (views : list (list nat)) h, let c := setViews (construct 0 views) h in
     getViews c = [[10]; [20; 21]] /\ forEach c = [Called 10; Called 20; NotCalled]).
Proof.
  split.
  - exists [(0, [10; 11]); (1, [20; 21])]. repeat split.
  - exists [[10]; [20]], [(1, [20; 21])]. repeat split.
Qed.
Print Assumptions c15_history_refuted.

Example c15_example :
  let c := setViews (construct 0 [[1; 2]; [3]; [4; 5; 6]]) [(0, [7]); (2, [8; 9]); (1, [10; 11])] in
  forEach c = map (@Called nat) [7; 10; 11; 8; 9] /\ getElementBeginIndices c = [0; 1; 3; 6].
Proof. split; reflexivity. Qed.

(** * C16 *)
(** The axes which are more than one wide. *)
Definition isGrouped (clusters : list (list Z)) (i k : nat) : Prop :=
  exists w, nth_error (nth i clusters []) k = Some w /\ w <> 1%Z.
(** Two grouped axes of one cluster never share a slot (a cluster does not hold
    interstitials and vacancies at once). *)
Definition slotsApart (slot : nat -> nat) (clusters : list (list Z)) : Prop :=
  forall i a b, i < length clusters -> isGrouped clusters i a -> isGrouped clusters i b -> slot a = slot b -> a = b.

Theorem c16_moment_ids : forall slot clusters,
  (forall a b, a <= b -> slot a <= slot b) -> slotsApart slot clusters ->
  let n := length clusters in let dof := n + nMomentIds clusters in
  (forall i k, i < n -> isGrouped clusters i k ->
     exists id, momentIds slot clusters i (slot k) = Some id /\ n <= id < dof) /\
  (forall i s id, i < n -> momentIds slot clusters i s = Some id ->
     n <= id < dof /\ exists k, isGrouped clusters i k /\ slot k = s) /\
  (forall id, n <= id < dof -> exists i s, i < n /\ momentIds slot clusters i s = Some id) /\
  (forall i i' s s' id, i < n -> i' < n -> momentIds slot clusters i s = Some id ->
     momentIds slot clusters i' s' = Some id -> i = i' /\ s = s').
Proof.
  intros slot clusters Hmono Hap n dof.
  assert (Hg : forall i k, In k (groupedFrom 0 (nth i clusters [])) <-> isGrouped clusters i k) by (intros; apply grouped_In).
  assert (Hok : forall ws, In ws clusters -> okRow slot ws).
  { intros ws Hws a b Ha Hb E. apply (In_nth _ _ []) in Hws as (i & Hi & <-).
    apply (Hap i); auto; apply Hg; assumption. }
  assert (S := @momentIds_spec slot clusters Hmono Hok). rename S into SP.
  assert (Hlen := nMomentIds_eq clusters).
  assert (Hlt : forall p x, nth_error (groupedPairs clusters) p = Some x -> p < nMomentIds clusters).
  { intros p x H. rewrite Hlen. apply nth_error_Some. congruence. }
  assert (Hpair : forall i k, In (i, k) (groupedPairs clusters) <-> i < n /\ isGrouped clusters i k).
  { intros i k. unfold groupedPairs. rewrite in_flat_map. split.
    - intros (j & Hj & H). apply in_seq in Hj. apply in_map_iff in H as (k' & [= -> ->] & H). split; [unfold n; lia|apply Hg; exact H].
    - intros [Hi H]. exists i. split; [apply in_seq; unfold n in *; lia|]. apply in_map_iff. exists k. split; [reflexivity|apply Hg; exact H]. }
  split; [|split; [|split]].
  - intros i k Hi H. assert (Hin : In (i, k) (groupedPairs clusters)) by (apply Hpair; auto).
    apply In_nth_error in Hin as [p Hp]. exists (n + p). split.
    + apply SP; [exact Hi|]. exists k, p. auto.
    + apply Hlt in Hp. unfold dof. lia.
  - intros i s id Hi H. apply SP in H as (k & p & Hp & Hs & ->); [|exact Hi]. split.
    + apply Hlt in Hp. unfold dof, n. lia.
    + exists k. split; [|exact Hs]. apply (Hpair i k). eapply nth_error_In; eauto.
  - intros id Hid. destruct (nth_error (groupedPairs clusters) (id - n)) as [[i k]|] eqn:E.
    + exists i, (slot k). assert (Hi : i < n) by (apply (Hpair i k); eapply nth_error_In; eauto).
      split; [exact Hi|]. apply SP; [exact Hi|]. exists k, (id - n). repeat split; auto. unfold n in *. lia.
    + apply nth_error_None in E. unfold dof in Hid. lia.
  - intros i i' s s' id Hi Hi' H H'. apply SP in H as (k & p & Hp & Hs & E); [|exact Hi].
    apply SP in H' as (k' & p' & Hp' & Hs' & E'); [|exact Hi'].
    assert (p = p') by lia. subst p'. rewrite Hp in Hp'. injection Hp' as -> ->. subst. auto.
Qed.
Print Assumptions c16_moment_ids.

(** The slot maps of the networks are of this kind. *)
Theorem c16_slot_maps : forall v,
  (forall a b, a <= b -> slotId a <= slotId b) /\ (forall a b, a <= b -> slotPSI v a <= slotPSI v b) /\
  (forall a b, a <= b -> slotOne a <= slotOne b).
Proof.
  intros v. repeat split; intros a b H; unfold slotId, slotPSI, slotOne; auto.
  destruct (Nat.eqb_spec a (S v)), (Nat.eqb_spec b (S v)); lia.
Qed.
Print Assumptions c16_slot_maps.
(** They stay inside the row of the table: as many slots as species other than I; [n] species in all
    (PSI, Fe: I is the last one, after V; Zr, Alloy: a single slot). *)
Theorem c16_slots_inside : forall n k, k < n -> slotId k < n /\ (2 <= n -> slotPSI (n - 2) k < n - 1) /\ slotOne k < 1.
Proof.
  intros n k H. unfold slotId, slotPSI, slotOne. split; [exact H|]. split; [|lia]. intros Hn.
  destruct (Nat.eqb_spec k (S (n - 2))); lia.
Qed.
Print Assumptions c16_slots_inside.
Example c16_slots_inside_ok : slotPSI 3 4 = 3 /\ slotPSI 3 2 = 2. Proof. split; reflexivity. Qed.

(** A PSI-like network (He, V, I): single He; vacancy group; He-V group; interstitial group. *)
Definition exClusters : list (list Z) := [[1; 1; 1]; [1; 4; 1]; [3; 2; 1]; [1; 1; 5]]%Z.
Example c16_example :
  map (fun i => map (momentIds (slotPSI 1) exClusters i) [0; 1]) [0; 1; 2; 3] =
    [[None; None]; [None; Some 4]; [Some 5; Some 6]; [None; Some 7]] /\ nMomentIds exClusters = 4 /\
  slotsApart (slotPSI 1) exClusters.
Proof.
  split; [reflexivity|]. split; [reflexivity|].
  intros i a b Hi (x & Ha & Hx) (y & Hb & Hy) E.
  destruct i as [|[|[|[|i]]]]; cbn in Hi; [| | | |lia];
    destruct a as [|[|[|a]]]; try (destruct a; discriminate); cbn in Ha; try congruence;
    destruct b as [|[|[|b]]]; try (destruct b; discriminate); cbn in Hb; try congruence; cbn in E; congruence.
Qed.

(** Without the condition an unknown is lost: two grouped axes on one slot. *)
Theorem c16_shared_slot_refuted :
  exists clusters, nMomentIds clusters = 2 /\
    forall i s, i < length clusters -> momentIds (slotPSI 1) clusters i s <> Some (length clusters + 0).
Proof.
  exists [[1; 2; 2]]%Z. split; [reflexivity|]. intros [|i] s Hi; [|cbn in Hi; lia].
  unfold momentIds. cbn. unfold setSlot. destruct (s =? 1); [discriminate|]. destruct (s =? 0); discriminate.
Qed.
Print Assumptions c16_shared_slot_refuted.
