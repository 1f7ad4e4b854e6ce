(** Properties C13 and C14: concurrent construction of the connectivity and of
    the reaction arrays. *)
From Coq Require Import FunctionalExtensionality.
From Verif Require Import CrsProofs.

(** * C13 *)
Lemma allThreads_In ndof rs r c : In (r, c) (concat (allThreads ndof rs)) <->
  (r = c /\ r < ndof) \/ exists d, In d rs /\ In (Some r, Some c) d.
Proof.
  unfold allThreads. rewrite concat_app, in_app_iff, !in_concat. split.
  - intros [(l & Hl & Hx)|(l & Hl & Hx)]; apply in_map_iff in Hl as (i & <- & Hi).
    + left. apply in_seq in Hi. destruct Hx as [[= <- <-]|[]]. lia.
    + right. exists i. split; [exact Hi|]. unfold validOps in Hx. apply in_flat_map in Hx as ([[a|] [b|]] & Hab & H);
        cbn in H; try tauto. destruct H as [[= <- <-]|[]]. exact Hab.
  - intros [[-> H]|(d & Hd & H)].
    + left. exists [(c, c)]. split; [|left; reflexivity]. apply in_map_iff. exists c. split; [reflexivity|]. apply in_seq. lia.
    + right. exists (validOps d). split; [apply in_map; exact Hd|]. unfold validOps. apply in_flat_map.
      exists (Some r, Some c). split; [exact H|left; reflexivity].
Qed.

(** Whatever the order of the increments and the interleaving of the threads,
    the fill pass stays inside the array, and when it is over row r holds,
    without repetition, r itself and exactly the announced columns; an entry has
    a position exactly when it was announced, and different entries have
    different positions. *)
Theorem c13_connectivity : forall ndof rs order sched,
  (forall d r c, In d rs -> In (Some r, Some c) d -> r < ndof) ->
  Permutation order (concat (allThreads ndof rs)) ->
  let rm := scan (countPass order) in
  exists s, run (rm ndof) rm (init rm (allThreads ndof rs)) sched = Some s /\
  (finished s -> let R := rows ndof rm (fst s) in
     forall r c, r < ndof ->
       NoDup (nth r R []) /\
       (In c (nth r R []) <-> r = c \/ exists d, In d rs /\ In (Some r, Some c) d) /\
       ((exists p, getPosition R r c = Some p) <-> r = c \/ exists d, In d rs /\ In (Some r, Some c) d) /\
       (forall r' c' p, r' < ndof -> getPosition R r c = Some p -> getPosition R r' c' = Some p -> r = r' /\ c = c')).
Proof.
  intros ndof rs order sched Hrows HP rm.
  assert (Erm : rm = scan (cntOf (concat (allThreads ndof rs)))).
  { unfold rm. f_equal. extensionality i. apply countPass_any. exact HP. }
  rewrite Erm. clear Erm rm.
  assert (HR : forall r c, In (r, c) (concat (allThreads ndof rs)) -> r < ndof).
  { intros r c H. apply allThreads_In in H as [[_ H]|(d & Hd & H)]; [exact H|eapply Hrows; eauto]. }
  destruct (@run_inv ndof (allThreads ndof rs) HR sched _ (init_inv ndof (allThreads ndof rs))) as (s & Hrun & Hinv).
  exists s. split; [exact Hrun|]. intros Hfin R r c Hr.
  assert (HL : length R = ndof) by (unfold R, rows; rewrite map_length, seq_length; reflexivity).
  assert (HN : forall q, q < ndof -> nth q R [] = rowOf (scan (cntOf (concat (allThreads ndof rs)))) (fst s) q).
  { intros q Hq. unfold R, rows. rewrite (nth_indep _ [] (rowOf (scan (cntOf (concat (allThreads ndof rs)))) (fst s) 0))
      by (rewrite map_length, seq_length; exact Hq).
    rewrite map_nth, seq_nth by exact Hq. reflexivity. }
  destruct (row_final Hinv Hfin Hr) as [ND HI]. rewrite <- HN in ND, HI by exact Hr.
  assert (HI' : In c (nth r R []) <-> r = c \/ exists d, In d rs /\ In (Some r, Some c) d).
  { rewrite HI, allThreads_In. intuition. }
  split; [exact ND|]. split; [exact HI'|]. split.
  - rewrite <- HI'. split.
    + intros [p H]. apply getPosition_some in H; [tauto|lia].
    + intros H. apply getPosition_In; [lia|exact H].
  - intros r' c' p Hr' H H'. apply (@getPosition_inj R r c r' c' p); auto; lia.
Qed.
Print Assumptions c13_connectivity.

(** No schedule makes more than a fixed number of steps of unfinished threads. *)
Theorem c13_terminates : forall ndof rs order,
  (forall d r c, In d rs -> In (Some r, Some c) d -> r < ndof) ->
  Permutation order (concat (allThreads ndof rs)) ->
  exists B, forall sched, effective ndof (allThreads ndof rs) (init (scan (countPass order)) (allThreads ndof rs)) sched <= B.
Proof.
  intros ndof rs order Hrows HP.
  assert (Erm : countPass order = cntOf (concat (allThreads ndof rs))) by (extensionality i; apply countPass_any; exact HP).
  rewrite Erm. eexists. intros sched. apply effective_bound; [|apply init_inv].
  intros r c H. apply allThreads_In in H as [[_ H]|(d & Hd & H)]; [exact H|eapply Hrows; eauto].
Qed.
Print Assumptions c13_terminates.

(** Three unknowns, two reactions announcing a common pair, an interleaved schedule. *)
Definition exRs : list declared :=
  [[(Some 0, Some 1); (Some 2, None); (Some 0, Some 2)]; [(Some 0, Some 1); (Some 1, Some 0)]].
Definition exSched : list nat := [3; 0; 4; 3; 0; 1; 0; 4; 2; 4; 3; 4; 3; 0; 4; 3; 3; 0; 4; 4; 3; 3; 4; 4; 3; 3; 4; 0; 0; 0; 0].
Example c13_example : exists s,
  run (scan (countPass (concat (allThreads 3 exRs))) 3) (scan (countPass (concat (allThreads 3 exRs))))
      (init (scan (countPass (concat (allThreads 3 exRs)))) (allThreads 3 exRs)) exSched = Some s /\
  rows 3 (scan (countPass (concat (allThreads 3 exRs)))) (fst s) = [[1; 0; 2]; [1; 0]; [2]] /\
  forallb (fun t => match todo t with [] => true | _ => false end) (snd s) = true /\
  getPosition [[1; 0; 2]; [1; 0]; [2]] 1 0 = Some 4 /\ getPosition [[1; 0; 2]; [1; 0]; [2]] 2 0 = None.
Proof. eexists. split; [vm_compute; reflexivity|]. repeat split; vm_compute; reflexivity. Qed.

(** * C14 *)
(** Production (key cluster0) and dissociation (key cluster1) arrays: for any
    interleaving, nothing is written outside the array, every reaction added is
    stored exactly once, in its own row. *)
Theorem c14_reaction_storage : forall P nrow (ths : list (list (nat * P))) order sched,
  (forall r p, In (r, p) (concat ths) -> r < nrow) ->
  Permutation order (concat ths) ->
  let rm := scan (countPass order) in
  exists s, srun (rm nrow) rm (sinit rm ths) sched = Some s /\
  (sfinished s -> forall r, r < nrow ->
     exists l, Permutation l (map snd (filter (fun o => fst o =? r) (concat ths))) /\
       length l = rm (S r) - rm r /\
       forall j, j < length l -> fst s (rm r + j) = option_map Some (nth_error l j)).
Proof.
  intros P nrow ths order sched Hrows HP rm.
  assert (Erm : rm = scan (cntOf (concat ths))).
  { unfold rm. f_equal. extensionality i. apply countPass_any. exact HP. }
  rewrite Erm. clear Erm rm.
  destruct (@srun_inv P nrow ths Hrows sched _ (sinit_inv nrow ths)) as (s & Hrun & Hinv).
  exists s. split; [exact Hrun|]. intros Hf r Hr. destruct (store_final Hinv Hf Hr) as (l & HPl & Hc).
  assert (HL : length l = cntOf (concat ths) r) by (rewrite (Permutation_length HPl); apply colsOf_length).
  exists l. split; [exact HPl|]. split; [cbn; lia|]. intros j Hj. rewrite Hc by lia.
  destruct (nth_error l j); reflexivity.
Qed.
Print Assumptions c14_reaction_storage.

Theorem c14_terminates : forall P nrow (ths : list (list (nat * P))) order,
  (forall r p, In (r, p) (concat ths) -> r < nrow) -> Permutation order (concat ths) ->
  exists B, forall sched, seffective nrow ths (sinit (scan (countPass order)) ths) sched <= B.
Proof.
  intros P nrow ths order Hrows HP.
  assert (Erm : countPass order = cntOf (concat ths)) by (extensionality i; apply countPass_any; exact HP).
  rewrite Erm. eexists. intros sched. apply seffective_bound; [exact Hrows|apply sinit_inv].
Qed.
Print Assumptions c14_terminates.

Definition exThs : list (list (nat * nat)) := [[(0, 10); (2, 11)]; [(0, 12)]; [(2, 13); (0, 14)]].
Example c14_example : exists s,
  srun (scan (countPass (concat exThs)) 3) (scan (countPass (concat exThs))) (sinit (scan (countPass (concat exThs))) exThs)
    [1; 0; 0; 0; 1; 0; 2; 2; 2; 2; 2; 0; 0; 0; 2; 2] = Some s /\
  map (fst s) (seq 0 5) = [Some (Some 12); Some (Some 10); Some (Some 14); Some (Some 11); Some (Some 13)].
Proof. eexists. split; vm_compute; reflexivity. Qed.
