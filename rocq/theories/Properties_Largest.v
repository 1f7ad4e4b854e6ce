(** C87: the guard on the largest cluster watches the largest cluster. *)
From Verif Require Import LargestModel.
From Coq Require Import Reals List Arith Lia Lra Bool Permutation.
Import ListNotations.
Open Scope R_scope.

(** ** The largest cluster *)
(** The atoms (or defects) of a composition: what is counted in each material. *)
Definition counted (n : network) : list sp :=
  match n with
  | PSI d t => [SHe; SV] ++ (if d then [SD] else []) ++ (if t then [ST] else [])
  | NE => [SXe; SV]
  | Fe => [SHe; SV]
  | Alloy => [SVoid; SFrank; SFaulted]
  | Zr => [SV; SI; SBasal]
  end.
Definition atoms (n : network) (c : point) : nat := list_sum (map c (counted n)).
Lemma size_atoms n hi last : (forall s, hi s = S (last s)) -> size n hi = (atoms n last + length (counted n))%nat.
Proof. intros H. destruct n as [[] []| | | |]; unfold atoms; cbn; rewrite ?H; lia. Qed.

Section MAX.
Variable sz : nat -> nat.
Definition attained (l : list nat) (r : loc) : Prop :=
  (forall i, In i l -> (sz i <= fst r)%nat) /\ match snd r with Some i => In i l /\ fst r = sz i | None => fst r = 0%nat end.
Lemma one_attained l r i : attained l r -> attained (l ++ [i]) (one sz r i).
Proof.
  intros (M & A). unfold one. destruct (Nat.ltb_spec (fst r) (sz i)) as [L|L]; split; cbn [fst snd].
  - intros k Hk. apply in_app_or in Hk. destruct Hk as [Hk|[<-|[]]]; [specialize (M _ Hk)|]; lia.
  - split; [apply in_or_app; right; left|]; reflexivity.
  - intros k Hk. apply in_app_or in Hk. destruct Hk as [Hk|[<-|[]]]; [auto|lia].
  - destruct (snd r); [|exact A]. split; [apply in_or_app; left; apply A|apply A].
Qed.
Lemma share_attained l : forall l0 r, attained l0 r -> attained (l0 ++ l) (fold_left (one sz) l r).
Proof.
  induction l as [|i l IH]; intros l0 r H; [rewrite app_nil_r; exact H|]. cbn [fold_left]. replace (l0 ++ i :: l) with ((l0 ++ [i]) ++ l) by (rewrite <- app_assoc; reflexivity). apply IH, one_attained, H.
Qed.
Lemma join_attained l l' r r' : attained l r -> attained l' r' -> attained (l ++ l') (join r r').
Proof.
  intros (M & A) (M' & A'). unfold join. destruct (Nat.ltb_spec (fst r) (fst r')) as [L|L]; split.
  - intros k Hk. apply in_app_or in Hk. destruct Hk as [Hk|Hk]; [specialize (M _ Hk); lia|auto].
  - destruct (snd r'); [|exact A']. split; [apply in_or_app; right; apply A'|apply A'].
  - intros k Hk. apply in_app_or in Hk. destruct Hk as [Hk|Hk]; [auto|specialize (M' _ Hk); lia].
  - destruct (snd r); [|exact A]. split; [apply in_or_app; left; apply A|apply A].
Qed.
Lemma threads_attained ts : forall l0 r, attained l0 r -> attained (l0 ++ concat ts) (fold_left join (map (fun l => fold_left (one sz) l (0%nat, None)) ts) r).
Proof.
  induction ts as [|t ts IH]; intros l0 r H; [cbn; rewrite app_nil_r; exact H|]. cbn [map fold_left concat]. rewrite app_assoc. apply IH, join_attained; [exact H|].
  apply (share_attained t [] (0%nat, None)). split; [intros i []|reflexivity].
Qed.
End MAX.

(** However the clusters are shared out, a cluster is found whose upper limits are the largest. *)
Theorem c87_largest n hi N threads : (0 < N)%nat -> Permutation (concat threads) (seq 0 N) -> (forall i s, (i < N)%nat -> (1 <= hi i s)%nat) ->
  exists id, checkLargestClusterId n hi threads = Some id /\ (id < N)%nat /\
    forall i last last', (i < N)%nat -> (forall s, hi i s = S (last s)) -> (forall s, hi id s = S (last' s)) -> (atoms n last <= atoms n last')%nat.
Proof.
  intros HN P Pos. unfold checkLargestClusterId. set (sz := fun i => size n (hi i)).
  pose proof (threads_attained sz threads [] (0%nat, None)) as T. cbn [app] in T. assert (A0 : attained sz [] (0%nat, None)) by (split; [intros i []|reflexivity]). specialize (T A0). destruct T as (M & A).
  assert (In0 : forall i, (i < N)%nat -> In i (concat threads)) by (intros i Hi; eapply Permutation_in; [apply Permutation_sym, P|]; apply in_seq; lia).
  assert (S0 : (0 < sz 0%nat)%nat). { pose proof (Pos 0%nat). unfold sz, size. destruct n; [pose proof (Pos 0%nat SHe HN)|pose proof (Pos 0%nat SXe HN)|pose proof (Pos 0%nat SHe HN)|pose proof (Pos 0%nat SVoid HN)|pose proof (Pos 0%nat SV HN)]; lia. }
  pose proof (M _ (In0 _ HN)) as M0. destruct (snd _) as [id|] eqn:E in A; [|lia]. destruct A as (I & V). exists id. split; [exact E|]. split.
  - pose proof (Permutation_in _ P I) as J. apply in_seq in J. lia.
  - intros i last last' Hi H H'. specialize (M _ (In0 _ Hi)). rewrite V in M. unfold sz in M. rewrite (size_atoms _ _ _ H), (size_atoms _ _ _ H') in M. lia.
Qed.
(** He8V2, V30 and I6 (singles), on two threads: V30. *)
Definition exHi (i : nat) : point := fun s =>
  match i, s with 0%nat, SHe => 9 | 0%nat, SV => 3 | 1%nat, SV => 31 | 2%nat, SI => 7 | _, _ => 1 end%nat.
Example c87_largest_ok : checkLargestClusterId (PSI true false) exHi [[2]; [0; 1]]%nat = Some 1%nat /\ Permutation (concat [[2]; [0; 1]]%nat) (seq 0 3) /\ (forall i s, (1 <= exHi i s)%nat).
Proof.
  split; [reflexivity|]. split; [cbn; apply (Permutation_cons_append [0; 1]%nat 2%nat)|]. intros [|[|[|i]]] []; cbn; lia.
Qed.


(** ** What is not watched *)
(** A cluster of [k] of one species. *)
Definition pure (q : sp -> bool) (k : nat) : point := fun s => if q s then S k else 1%nat.
Definition isV s := match s with SV => true | _ => false end.
Definition isI s := match s with SI => true | _ => false end.
Definition isFrank s := match s with SFrank => true | _ => false end.
Definition isPerfect s := match s with SPerfect => true | _ => false end.
Lemma two_threads (a b : nat) threads : Permutation (concat threads) [a; b] -> In a (concat threads) /\ In b (concat threads) /\ (forall i, In i (concat threads) -> i = a \/ i = b).
Proof.
  intros P. pose proof (Permutation_sym P) as Q. split; [|split].
  - eapply Permutation_in; [exact Q|left; reflexivity].
  - eapply Permutation_in; [exact Q|right; left; reflexivity].
  - intros i H. apply (Permutation_in _ P) in H. destruct H as [<-|[<-|[]]]; auto.
Qed.
Lemma two_max n hi threads : Permutation (concat threads) [0; 1]%nat -> (size n (hi 1) < size n (hi 0))%nat -> checkLargestClusterId n hi threads = Some 0%nat.
Proof.
  intros P L. unfold checkLargestClusterId. set (sz := fun i => size n (hi i)).
  assert (A0 : attained sz [] (0%nat, None)) by (split; [intros i []|reflexivity]). pose proof (threads_attained sz threads [] (0%nat, None) A0) as (M & A). cbn [app] in M, A.
  destruct (two_threads _ _ _ P) as (I0 & I1 & Or). specialize (M _ I0). change (sz 0%nat) with (size n (hi 0%nat)) in M. destruct (snd _) as [id|] eqn:E in A; [|lia]. destruct A as (I & V).
  rewrite E. destruct (Or _ I) as [->| ->]; [reflexivity|]. change (sz 1%nat) with (size n (hi 1%nat)) in V. lia.
Qed.
(** Interstitials of any size do not count, except in zirconium; nor do perfect loops in alloys: the smallest other cluster is watched instead. *)
Theorem c87_interstitial_refuted d t n k threads : In n [PSI d t; NE; Fe] -> Permutation (concat threads) [0; 1]%nat ->
  checkLargestClusterId n (fun i => match i with 0%nat => pure isV 1 | _ => pure isI k end) threads = Some 0%nat.
Proof. intros Hn P. apply two_max; [exact P|]. destruct Hn as [<-|[<-|[<-|[]]]]; cbn; try lia. Qed.
Theorem c87_perfect_refuted k threads : Permutation (concat threads) [0; 1]%nat ->
  checkLargestClusterId Alloy (fun i => match i with 0%nat => pure isFrank 1 | _ => pure isPerfect k end) threads = Some 0%nat.
Proof. intros P. apply two_max; [exact P|]. cbn. lia. Qed.
Example c87_refuted_ok : Permutation (concat [[1]; [0]]%nat) [0; 1]%nat /\
  checkLargestClusterId Alloy (fun i => match i with 0%nat => pure isFrank 1 | _ => pure isPerfect 30 end) [[1]; [0]]%nat = Some 0%nat /\
  checkLargestClusterId Zr (fun i => match i with 0%nat => pure isV 1 | _ => pure isI 30 end) [[1]; [0]]%nat = Some 1%nat.
Proof. split; [cbn; constructor|split; reflexivity]. Qed.

(** ** The threshold *)
(** A grid point is seen by the process which owns it; some process ends the run exactly if the threshold is exceeded somewhere. *)
Theorem c87_fires (P : Type) (conc : P -> nat -> R) (boxes : list (list P)) (grid : P -> Prop) id x : (forall p, grid p <-> exists b, In b boxes /\ In p b) ->
  ((exists b, In b boxes /\ monitorLargest conc b id x = true) <-> (exists p, grid p /\ conc p id > x)).
Proof.
  intros T. unfold monitorLargest. split.
  - intros (b & Hb & H). apply existsb_exists in H. destruct H as (p & Hp & H). exists p. split; [apply T; exists b; auto|]. destruct (Rlt_dec x (conc p id)); [lra|discriminate].
  - intros (p & Hp & H). apply T in Hp. destruct Hp as (b & Hb & Hp). exists b. split; [exact Hb|]. apply existsb_exists. exists p. split; [exact Hp|]. destruct (Rlt_dec x (conc p id)); [reflexivity|lra].
Qed.
(** The loops of a process go through its part of the grid. *)
Lemma in_interval s m i : In i (interval s m) <-> (s <= i < s + m)%nat.
Proof. apply in_seq. Qed.
Lemma in_box2 xs xm ys ym j i : In (j, i) (box2 xs xm ys ym) <-> (xs <= i < xs + xm)%nat /\ (ys <= j < ys + ym)%nat.
Proof.
  unfold box2. rewrite in_flat_map. split.
  - intros (j' & Hj & H). apply in_map_iff in H. destruct H as (i' & E & Hi). injection E as -> ->. rewrite in_interval in Hi, Hj. auto.
  - intros (Hi & Hj). exists j. split; [apply in_interval; exact Hj|]. apply in_map_iff. exists i. split; [reflexivity|]. apply in_interval. exact Hi.
Qed.
Theorem c87_loops (conc : nat -> nat -> R) (conc2 : nat * nat -> nat -> R) (conc3 : nat * nat * nat -> nat -> R) xs xm ys ym zs zm id x :
  (monitorLargest conc (box1 xs xm) id x = true <-> exists i, (xs <= i < xs + xm)%nat /\ x < conc i id) /\
  (monitorLargest conc2 (box2 xs xm ys ym) id x = true <-> exists j i, (xs <= i < xs + xm)%nat /\ (ys <= j < ys + ym)%nat /\ x < conc2 (j, i) id) /\
  (monitorLargest conc3 (box3 xs xm ys ym zs zm) id x = true <-> exists k j i, (xs <= i < xs + xm)%nat /\ (ys <= j < ys + ym)%nat /\ (zs <= k < zs + zm)%nat /\ x < conc3 (k, j, i) id).
Proof.
  unfold monitorLargest. split; [|split]; rewrite existsb_exists; split.
  - intros (i & Hi & H). exists i. split; [apply in_interval in Hi; exact Hi|]. destruct (Rlt_dec _ _); [assumption|discriminate].
  - intros (i & Hi & H). exists i. split; [apply in_interval; exact Hi|]. destruct (Rlt_dec _ _); [reflexivity|contradiction].
  - intros ((j, i) & Hi & H). apply in_box2 in Hi. exists j, i. destruct (Rlt_dec _ _); [tauto|discriminate].
  - intros (j & i & Hi & Hj & H). exists (j, i). split; [apply in_box2; auto|]. destruct (Rlt_dec _ _); [reflexivity|contradiction].
  - intros (((k, j), i) & Hi & H). unfold box3 in Hi. apply in_flat_map in Hi. destruct Hi as (k' & Hk & Hp). apply in_map_iff in Hp. destruct Hp as ((j', i') & E & Hp). cbn [fst snd] in E. injection E as -> -> ->.
    apply in_box2 in Hp. apply in_interval in Hk. exists k, j, i. destruct (Rlt_dec _ _); [tauto|discriminate].
  - intros (k & j & i & Hi & Hj & Hk & H). exists (k, j, i). split; [|destruct (Rlt_dec _ _); [reflexivity|contradiction]].
    unfold box3. apply in_flat_map. exists k. split; [apply in_interval; exact Hk|]. apply in_map_iff. exists (j, i). split; [reflexivity|]. apply in_box2. auto.
Qed.
(** The value given is the threshold; without a value it is 1e-12. *)
Theorem c87_threshold x : thresholdOf (Some x) = x /\ thresholdOf None = / (10 ^ 12).
Proof. split; [reflexivity|]. unfold thresholdOf. f_equal. lra. Qed.
Definition exConc (p : nat * nat) (id : nat) : R := match p, id with (5, 7)%nat, 1%nat => / 1000 | _, _ => 0 end.
Example c87_fires_ok : monitorLargest exConc (box2 4 4 0 10) 1 (thresholdOf None) = true /\ monitorLargest exConc (box2 0 4 0 10) 1 (thresholdOf None) = false /\
  monitorLargest exConc (box2 4 4 0 10) 0 (thresholdOf None) = false.
Proof.
  destruct (c87_threshold 0) as (_ & ->). split; [|split].
  - apply (c87_loops (fun _ _ => 0) exConc (fun _ _ => 0) 4 4 0 10 0 0). exists 5%nat, 7%nat. split; [lia|split; [lia|]]. cbn [exConc]. apply Rinv_lt_contravar; lra.
  - apply Bool.not_true_iff_false. rewrite (proj1 (proj2 (c87_loops (fun _ _ => 0) exConc (fun _ _ => 0) 0 4 0 10 0 0 1 (/ (10 ^ 12))))). intros (j & i & Hi & Hj & H).
    assert (E : exConc (j, i) 1 = 0). { do 4 (destruct i as [|i]; [do 6 (destruct j as [|j]; [reflexivity|]); reflexivity|]). lia. }
    rewrite E in H. assert (0 < / 10 ^ 12) by (apply Rinv_0_lt_compat; lra). lra.
  - apply Bool.not_true_iff_false. rewrite (proj1 (proj2 (c87_loops (fun _ _ => 0) exConc (fun _ _ => 0) 4 4 0 10 0 0 0 (/ (10 ^ 12))))). intros (j & i & Hi & Hj & H).
    assert (E : exConc (j, i) 0 = 0). { do 8 (destruct i as [|i]; [do 6 (destruct j as [|j]; [reflexivity|]); reflexivity|]). lia. }
    rewrite E in H. assert (0 < / 10 ^ 12) by (apply Rinv_0_lt_compat; lra). lra.
Qed.

(** Of several equally large clusters only one is watched: the other may exceed the threshold everywhere. *)
Theorem c87_tie_refuted n (a b : point) x (N : nat) : (forall s, (1 <= a s)%nat) -> size n a = size n b ->
  exists id (conc : nat -> nat -> R), checkLargestClusterId n (fun i => match i with 0%nat => a | _ => b end) [[0; 1]]%nat = Some id /\
    monitorLargest conc (box1 0 N) id x = false /\ (id = 0%nat /\ forall p, conc p 1%nat > x).
Proof.
  intros Pos E. exists 0%nat, (fun _ i => if (i =? 0)%nat then x else x + 1). split; [|split].
  - apply (f_equal snd (y := (size n a, Some 0%nat))). cbn -[size Nat.ltb]. unfold one. cbn -[size Nat.ltb].
    assert (S0 : (0 < size n a)%nat). { unfold size. destruct n; [pose proof (Pos SHe)|pose proof (Pos SXe)|pose proof (Pos SHe)|pose proof (Pos SVoid)|pose proof (Pos SV)]; lia. }
    destruct (Nat.ltb_spec 0 (size n a)); [|lia]. cbn -[size Nat.ltb]. rewrite <- E. rewrite (Nat.ltb_irrefl (size n a)). unfold join. cbn -[size Nat.ltb]. destruct (Nat.ltb_spec 0 (size n a)); [reflexivity|lia].
  - apply Bool.not_true_iff_false. rewrite (proj1 (c87_loops (fun _ i => if (i =? 0)%nat then x else x + 1) (fun _ _ => 0) (fun _ _ => 0) 0 N 0 0 0 0 0 x)). intros (i & _ & H). cbn in H. lra.
  - split; [reflexivity|]. intros p. cbn. lra.
Qed.
(** Frank and faulted loops of 30. *)
Example c87_tie_refuted_ok : size Alloy (pure isFrank 30) = size Alloy (pure (fun s => match s with SFaulted => true | _ => false end) 30).
Proof. reflexivity. Qed.
Print Assumptions c87_largest.
Print Assumptions c87_interstitial_refuted.
Print Assumptions c87_perfect_refuted.
Print Assumptions c87_fires.
Print Assumptions c87_loops.
Print Assumptions c87_threshold.
Print Assumptions c87_tie_refuted.
