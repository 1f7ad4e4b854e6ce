(** C95: what a run which begins does to the files. *)
From Coq Require Import List Bool Arith Lia.
From Verif Require Import BeginModel.
Import ListNotations.

Section FILES.
Variables (Name Id Network Step : Type).
Variable Name_dec : forall a b : Name, {a = b} + {a <> b}.
Variable Id_dec : forall a b : Id, {a = b} + {a <> b}.
Variable resolve : Name -> Id.
Notation file := (file Network Step).
Notation run := (beginRun (Step := Step) Name_dec Id_dec resolve).
Variables (output : Name) (own : Network).

Ltac go := unfold beginRun, setup, construct, checkForRestart, createFile, writeNetwork, sameName, exists_, put, option_map.
Ltac cases := repeat (match goal with
  | |- context [Id_dec ?a ?b] => destruct (Id_dec a b)
  | |- context [Name_dec ?a ?b] => destruct (Name_dec a b)
  | H : context [Id_dec ?a ?b] |- _ => destruct (Id_dec a b)
  end; cbn in *; try congruence); try congruence.

Lemma put_other (d : disk Id Network Step) i f j : j <> i -> put Id_dec d i f j = d j.
Proof. intros N. unfold put. destruct (Id_dec j i); [contradiction|reflexivity]. Qed.

(** A run from the start: its checkpoint has its network and no step yet. *)
Theorem c95_fresh d : checkForRestart resolve None d = false /\ exists d', run None output own 0 d = Some d' /\ d' (resolve output) = Some (File (Some own) []) /\
  forall i, i <> resolve output -> d' i = d i.
Proof.
  split; [reflexivity|]. go. cbn [negb andb Nat.eqb]. destruct (d (resolve output)) eqn:E; eexists; (split; [cases; reflexivity|]); (split; [cases|]); intros i N; cases.
Qed.
(** A restart from another file leaves that file as it is. *)
Theorem c95_restart r f d : d (resolve r) = Some f -> resolve r <> resolve output ->
  exists d', run (Some r) output own 0 d = Some d' /\ d' (resolve r) = Some f /\
    d' (resolve output) = Some (File (fnetwork f) []) /\ forall i, i <> resolve output -> d' i = d i.
Proof.
  intros F N. assert (NN : output <> r) by (intros E; apply N; rewrite E; reflexivity). go.
  destruct (Name_dec output r); [contradiction|]. cbn [negb andb Nat.eqb].
  assert (Z1 : forall A (x y : A), (if Id_dec (resolve output) (resolve output) then x else y) = x) by (intros; destruct (Id_dec (resolve output) (resolve output)); [reflexivity|contradiction]).
  assert (Z2 : forall A (x y : A), (if Id_dec (resolve r) (resolve output) then x else y) = y) by (intros; destruct (Id_dec (resolve r) (resolve output)); [contradiction|reflexivity]).
  destruct (d (resolve output)) eqn:E; cbv beta; rewrite ?Z2, F, ?Z2; cbv beta; rewrite ?Z1, ?Z2, ?F; destruct f as [[net|] sts]; cbn [fnetwork fsteps];
    (eexists; split; [reflexivity|]; cbv beta; split; [rewrite ?Z2; auto|]; split; [rewrite ?Z1; reflexivity|]; intros i Ni; cases).
Qed.
(** Continuing in the same file, and every later loop of a run with a checkpoint, keeps everything. *)
Theorem c95_same loop f d : d (resolve output) = Some f -> run (Some output) output own loop d = Some d.
Proof. intros F. go. rewrite F. destruct (Name_dec output output); [reflexivity|contradiction]. Qed.
Theorem c95_later restart loop f d : d (resolve output) = Some f -> (0 < loop)%nat -> run restart output own loop d = Some d.
Proof. intros F L. go. rewrite F. destruct loop; [lia|]. cbn [Nat.eqb]. rewrite andb_false_r. reflexivity. Qed.
(** Whatever the names: a file to restart from which existed is never changed by a run which begins, nor is any file but the checkpoint. *)
Theorem c95_safe restart loop d d' : run restart output own loop d = Some d' ->
  (forall r f, restart = Some r -> d (resolve r) = Some f -> d' (resolve r) = Some f) /\ (forall i, i <> resolve output -> d' i = d i).
Proof.
  intros H. assert (P : (forall i, i <> resolve output -> d' i = d i)).
  { intros i N. transitivity (construct Id_dec resolve output d i);
      [|unfold construct; destruct (exists_ d (resolve output)); [reflexivity|apply put_other; exact N]].
    unfold beginRun, setup in H. set (dd := construct Id_dec resolve output d) in *.
    destruct (negb (sameName Name_dec restart output) && (loop =? 0))%bool; [|injection H as <-; reflexivity].
    destruct (createFile _ _ dd (resolve output)) as [dc|] eqn:C; [|discriminate]. transitivity (dc i).
    - revert H. unfold writeNetwork. destruct restart as [r|].
      + destruct (dc (resolve r)) as [src|]; [|discriminate]. destruct (fnetwork src); [|intros H; injection H as <-; reflexivity].
        destruct (dc (resolve output)); [|discriminate]. intros H; injection H as <-. apply put_other; exact N.
      + destruct (dc (resolve output)); [|discriminate]. intros H; injection H as <-. apply put_other; exact N.
    - revert C. unfold createFile. destruct (if checkForRestart resolve restart dd then option_map resolve restart else None) as [k|].
      + destruct (Id_dec k (resolve output)); [discriminate|]. intros C; injection C as <-. apply put_other; exact N.
      + intros C; injection C as <-. apply put_other; exact N. }
  split; [|exact P]. intros r f -> F. destruct (Id_dec (resolve r) (resolve output)) as [E|E]; [|rewrite P; auto].
  revert H. go. rewrite <- E, F. destruct (Name_dec output r); cbn [negb andb]; [intros H; injection H as <-; exact F|].
  destruct (Nat.eqb loop 0); [|intros H; injection H as <-; exact F]. rewrite F. destruct (Id_dec (resolve r) (resolve r)); [discriminate|contradiction].
Qed.

(** ** What the checkpoint says about its network *)
(** The network of a restart is described by the file, whatever the network of the run is; and not at all if the file has none. *)
Theorem c95_network_refuted r n steps d : d (resolve r) = Some (File (Some n) steps) -> resolve r <> resolve output -> n <> own ->
  exists d' steps', run (Some r) output own 0 d = Some d' /\ d' (resolve output) = Some (File (Some n) steps') /\ d' (resolve output) <> Some (File (Some own) steps').
Proof.
  intros F N D. destruct (c95_restart r _ d F N) as (d' & E & _ & O & _). exists d', []. split; [exact E|]. split; [exact O|]. rewrite O. cbn. congruence.
Qed.
Theorem c95_no_network_refuted r steps d : d (resolve r) = Some (File None steps) -> resolve r <> resolve output ->
  exists d', run (Some r) output own 0 d = Some d' /\ d' (resolve output) = Some (File None []).
Proof. intros F N. destruct (c95_restart r _ d F N) as (d' & E & _ & O & _). exists d'. split; [exact E|exact O]. Qed.
(** A name for which there is no file is not a restart, but the run ends with an exception; under the name of the checkpoint it
    begins, and its checkpoint has no network. *)
Theorem c95_missing_refuted r d : d (resolve r) = None -> resolve r <> resolve output ->
  checkForRestart resolve (Some r) d = false /\ run (Some r) output own 0 d = None.
Proof.
  intros F N. assert (NN : output <> r) by (intros E; apply N; rewrite E; reflexivity). split; [unfold checkForRestart, exists_; rewrite F; reflexivity|].
  go. destruct (Name_dec output r); [contradiction|]. cbn [negb andb Nat.eqb].
  destruct (d (resolve output)) eqn:E; cases; rewrite ?F; cases; rewrite ?F; reflexivity.
Qed.
Theorem c95_same_missing_refuted d : d (resolve output) = None ->
  exists d', run (Some output) output own 0 d = Some d' /\ d' (resolve output) = Some (File None []).
Proof. intros F. go. rewrite F. destruct (Name_dec output output); [|contradiction]. cbn [negb andb]. eexists. split; [reflexivity|]. cbv beta. cases. Qed.
(** The same file under another name is refused, although it could have been continued. *)
Theorem c95_alias_refuted r f d : d (resolve output) = Some f -> r <> output -> resolve r = resolve output ->
  run (Some r) output own 0 d = None /\ run (Some output) output own 0 d = Some d.
Proof.
  intros F N E. split; [|eapply c95_same; eauto]. go. rewrite F. destruct (Name_dec output r) as [E'|_]; [congruence|]. cbn [negb andb Nat.eqb]. rewrite E, F.
  destruct (Id_dec (resolve output) (resolve output)); [reflexivity|contradiction].
Qed.
End FILES.

(** Names 0 and 10 stand for the file 0, name 1 for the file 1, name 2 for a file which is not there. *)
Example c95_ok : let resolve n := (n mod 10)%nat in
  let d (i : nat) := if (i =? 0)%nat then Some (File (Some 7%nat) [1%nat; 2%nat]) else if (i =? 1)%nat then Some (File None [3%nat]) else None in
  d (resolve 0%nat) = Some (File (Some 7%nat) [1%nat; 2%nat]) /\ resolve 0%nat <> resolve 1%nat /\
  d (resolve 2%nat) = None /\ resolve 2%nat <> resolve 0%nat /\ 10%nat <> 0%nat /\ resolve 10%nat = resolve 0%nat /\ 7%nat <> 8%nat /\
  beginRun Nat.eq_dec Nat.eq_dec resolve (Some 10%nat) 0%nat 8%nat 0 d = None /\
  exists d', beginRun Nat.eq_dec Nat.eq_dec resolve (Some 0%nat) 1%nat 8%nat 0 d = Some d' /\ map d' [0; 1; 2] = [Some (File (Some 7) [1; 2]); Some (File (Some 7) []); None].
Proof. cbv zeta. repeat split; try discriminate. eexists. split; reflexivity. Qed.
Print Assumptions c95_fresh.
Print Assumptions c95_restart.
Print Assumptions c95_same.
Print Assumptions c95_later.
Print Assumptions c95_safe.
Print Assumptions c95_network_refuted.
Print Assumptions c95_no_network_refuted.
Print Assumptions c95_missing_refuted.
Print Assumptions c95_same_missing_refuted.
Print Assumptions c95_alias_refuted.
