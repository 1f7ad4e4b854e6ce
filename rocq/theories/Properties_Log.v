(** C97: the messages of a run. *)
From Coq Require Import List Arith Bool Ascii String Lia.
From Verif Require Import LogModel.
Import ListNotations.

(** ** The names of the levels *)
(** Two letters which differ in their case only. *)
Definition sameLetter (a b : ascii) : Prop := a = b \/ exists k, (k < 26)%nat /\ (nat_of_ascii a = 97 + k /\ nat_of_ascii b = 65 + k)%nat.
Inductive reads : string -> string -> Prop :=
| reads_nil : reads EmptyString EmptyString
| reads_cons a b s t : sameLetter a b -> reads s t -> reads (String a s) (String b t).
Lemma upper_same a : sameLetter a (upper a).
Proof.
  unfold upper, sameLetter. destruct (Nat.leb_spec 97 (nat_of_ascii a)); cbn [andb]; [|left; reflexivity].
  destruct (Nat.leb_spec (nat_of_ascii a) 122); [|left; reflexivity]. right. exists (nat_of_ascii a - 97)%nat. split; [lia|]. split; [lia|]. rewrite nat_ascii_embedding by lia. lia.
Qed.
Lemma same_upper a b : sameLetter a b -> (nat_of_ascii b < 97)%nat -> upper a = b.
Proof.
  intros [->|(k & Hk & A & B)] H; unfold upper; [destruct (Nat.leb_spec 97 (nat_of_ascii b)); [lia|reflexivity]|].
  rewrite A. destruct (Nat.leb_spec 97 (97 + k)), (Nat.leb_spec (97 + k) 122); try lia. cbn [andb].
  replace (97 + k - 32)%nat with (nat_of_ascii b) by lia. apply ascii_nat_embedding.
Qed.
Fixpoint capital (s : string) : Prop := match s with EmptyString => True | String c r => (nat_of_ascii c < 97)%nat /\ capital r end.
Lemma toUpper_reads s t : capital t -> (toUpper s = t <-> reads s t).
Proof.
  revert t. induction s as [|a s IH]; intros t C; cbn [toUpper].
  - split; [intros <-; constructor|intros H; inversion H; reflexivity].
  - split.
    + intros <-. constructor; [apply upper_same|]. apply IH; [apply C|reflexivity].
    + intros H. inversion H as [|a' b s' t' L R]; subst. destruct C as [C1 C2]. f_equal; [apply same_upper; assumption|apply IH; assumption].
Qed.
(** In any case of the letters; everything else is refused. *)
Theorem c97_names s l : logLevelFromString s = Some l <->
  (l = 0 /\ reads s "DEBUG" \/ l = 1 /\ reads s "EXTRA" \/ l = 2 /\ reads s "INFO" \/ l = 3 /\ reads s "WARNING" \/ l = 4 /\ reads s "ERROR")%nat.
Proof.
  rewrite <- !toUpper_reads by (cbn; lia). unfold logLevelFromString, levelStrings. generalize (toUpper s). intros u. cbn [find].
  repeat match goal with |- context [string_dec ?a u] => destruct (string_dec a u) end; cbn [option_map]; (split; [intros H; try discriminate; injection H as <-; subst u; tauto|]);
  intros H; repeat (destruct H as [[? ?]|H]); try destruct H; subst; congruence.
Qed.
Print Assumptions c97_names.
Example c97_names_ok : reads "Warning" "WARNING" /\ logLevelFromString "Warning" = Some 3%nat /\ logLevelFromString "warn" = None.
Proof. split; [apply toUpper_reads; [cbn; lia|reflexivity]|split; reflexivity]. Qed.

(** ** Where a message goes *)
Section MESSAGES.
Variable Text : Type.
Variables (rank : nat) (noRank : Text).
Notation msgs := (list (nat * Text)).
(** The texts of the messages whose levels meet a condition, in order. *)
Definition those (p : nat -> bool) (ms : msgs) : list Text := map snd (filter (fun m => p (fst m)) ms).
Lemma those_cons p l t (ms : msgs) : those p ((l, t) :: ms) = (if p l then [t] else []) ++ those p ms.
Proof. unfold those. cbn [filter fst]. destruct (p l); reflexivity. Qed.
Lemma steps release mpi ms s : ready s = true -> let s' := fold_left (step release rank mpi noRank) (map (fun m => Message (fst m) (snd m)) ms) s in
  out s' = out s ++ those (fun m => (filter_ s <=? m) && (2 <=? m) && (m <? 4))%nat ms /\ err s' = err s ++ those (fun m => (filter_ s <=? m) && (4 <=? m))%nat ms /\
  file s' = file s ++ (if fileSink s then those (fun m => filter_ s <=? m)%nat ms else []).
Proof.
  revert s. induction ms as [|[l t] ms IH]; intros s R; cbn [map fold_left fst snd].
  - unfold those. cbn. rewrite !app_nil_r. destruct (fileSink s); rewrite ?app_nil_r; auto.
  - cbn [step]. rewrite R. assert (R' : ready (record_ l t s) = true) by (unfold record_; destruct (filter_ s <=? l); exact R).
    specialize (IH (record_ l t s) R'). cbv zeta in IH. destruct IH as (A & B & C). rewrite A, B, C, !those_cons.
    unfold record_. destruct (filter_ s <=? l)%nat; cbn [filter_ out err file fileSink andb].
    + destruct ((2 <=? l) && (l <? 4))%nat, (4 <=? l)%nat, (fileSink s); cbn [app]; rewrite <- ?app_assoc; cbn [app]; auto.
    + cbn [app]. destruct (fileSink s); auto.
Qed.
Lemma first release mpi l ms s : ready s = false -> ms <> [] -> filter_ s = l -> threshold s = l -> mpi = true ->
  let s' := fold_left (step release rank mpi noRank) (map (fun m => Message (fst m) (snd m)) ms) s in
  s' = fold_left (step release rank mpi noRank) (map (fun m => Message (fst m) (snd m)) ms) (setupLogs release rank mpi noRank s).
Proof.
  intros R N F T M. destruct ms as [|[k t] ms]; [contradiction|]. cbn [map fold_left fst snd step]. rewrite R. cbv zeta. f_equal. f_equal.
  assert (E : ready (setupLogs release rank mpi noRank s) = true). { unfold setupLogs. rewrite M. destruct (_ && _)%bool; reflexivity. } rewrite E. reflexivity.
Qed.

(** With assertions: a message appears exactly if its level is at least the one asked for: information and warnings on the output, errors on the error
    stream, and all in the file of the first process, or of every process if more than information is asked for. *)
Theorem c97_json l (ms : msgs) : (l <= 4)%nat ->
  let s := run false rank true noRank (json l ms) in
  out s = those (fun m => (l <=? m) && (2 <=? m) && (m <? 4))%nat ms /\ err s = those (fun m => (l <=? m) && (4 <=? m))%nat ms /\
  file s = (if ((rank =? 0) || (l <=? 1))%nat then those (fun m => l <=? m)%nat ms else []).
Proof.
  intros _. unfold run, json. cbn [fold_left step start]. cbv zeta. destruct ms as [|m0 ms'] eqn:EM; [cbn; destruct (_ || _)%bool; auto|]. rewrite <- EM.
  rewrite (first false true l ms) by (auto; rewrite EM; discriminate).
  match goal with |- context [setupLogs ?a ?b ?c ?d ?s] => set (z := setupLogs a b c d s) end.
  assert (Z : ready z = true /\ filter_ z = l /\ out z = [] /\ err z = [] /\ file z = [] /\ fileSink z = ((rank =? 0) || (l <=? 1))%nat%bool).
  { unfold z, setupLogs. cbn [threshold filter_ out err file]. destruct (Nat.ltb_spec 1 l), (Nat.ltb_spec 0 rank), (Nat.eqb_spec rank 0), (Nat.leb_spec l 1); try lia; cbn; auto 10. }
  destruct Z as (R & F & O & E & Fi & Fs). destruct (steps false true ms z R) as (A & B & C). cbv zeta in A, B, C. rewrite A, B, C, F, O, E, Fi, Fs. auto.
Qed.
(** With the old format the same for the output; there is one file only, whatever is asked for. *)
Theorem c97_conf release w l (ms : msgs) : (l <= 4)%nat ->
  let s := run release rank true noRank (conf w l ms) in
  out s = w :: those (fun m => (l <=? m) && (2 <=? m) && (m <? 4))%nat ms /\ err s = those (fun m => (l <=? m) && (4 <=? m))%nat ms /\
  file s = (if (rank =? 0)%nat then w :: those (fun m => l <=? m)%nat ms else []).
Proof.
  intros _. unfold run, conf. cbn [fold_left step start ready]. cbv zeta.
  match goal with |- context [fold_left _ _ ?s] => set (z := s) end.
  assert (Z : ready z = true /\ filter_ z = l /\ out z = [w] /\ err z = [] /\ file z = (if (rank =? 0)%nat then [w] else []) /\ fileSink z = (rank =? 0)%nat).
  { unfold z, setupLogs, record_. cbn [threshold filter_ out err file]. destruct release, rank; cbn; auto 10. }
  destruct Z as (R & F & O & E & Fi & Fs). destruct (steps release true ms z R) as (A & B & C). cbv zeta in A, B, C. rewrite A, B, C, F, O, E, Fi, Fs.
  destruct (rank =? 0)%nat; auto.
Qed.
(** Without assertions the level asked for is lost at the first message: information always appears, and debugging never does. *)
Theorem c97_level_refuted l (ms : msgs) : (l <= 4)%nat ->
  let s := run true rank true noRank (json l ms) in
  out s = those (fun m => (2 <=? m) && (m <? 4))%nat ms /\ err s = those (fun m => 4 <=? m)%nat ms /\
  file s = (if ((rank =? 0) || (l <=? 1))%nat then those (fun m => 1 <=? m)%nat ms else []).
Proof.
  intros _. unfold run, json. cbn [fold_left step start]. cbv zeta. destruct ms as [|m0 ms'] eqn:EM; [cbn; destruct (_ || _)%bool; auto|]. rewrite <- EM.
  rewrite (first true true l ms) by (auto; rewrite EM; discriminate).
  match goal with |- context [setupLogs ?a ?b ?c ?d ?s] => set (z := setupLogs a b c d s) end.
  assert (Z : ready z = true /\ filter_ z = 1%nat /\ out z = [] /\ err z = [] /\ file z = [] /\ fileSink z = ((rank =? 0) || (l <=? 1))%nat%bool).
  { unfold z, setupLogs. cbn [threshold filter_ out err file]. destruct (Nat.ltb_spec 1 l), (Nat.ltb_spec 0 rank), (Nat.eqb_spec rank 0), (Nat.leb_spec l 1); try lia; cbn; auto 10. }
  assert (X : forall p q : nat -> bool, (forall m, p m = q m) -> those p ms = those q ms) by (intros p q H; unfold those; f_equal; apply filter_ext; intros m; apply H).
  destruct Z as (R & F & O & E & Fi & Fs). destruct (steps true true ms z R) as (A & B & C). cbv zeta in A, B, C. rewrite A, B, C, F, O, E, Fi, Fs. cbn [app]. split; [|split; [|reflexivity]];
  apply X; intros m; [destruct (Nat.leb_spec 1 m), (Nat.leb_spec 2 m)|destruct (Nat.leb_spec 1 m), (Nat.leb_spec 4 m)]; try lia; reflexivity.
Qed.
(** The other processes: asked for more than information they write a file with JSON parameters, and none in the old format. *)
Theorem c97_file_refuted release w l (ms : msgs) : (l <= 1)%nat -> (0 < rank)%nat ->
  file (run false rank true noRank (json l ms)) = those (fun m => l <=? m)%nat ms /\ file (run release rank true noRank (conf w l ms)) = [].
Proof.
  intros L R. destruct (c97_json l ms ltac:(lia)) as (_ & _ & E). destruct (c97_conf release w l ms ltac:(lia)) as (_ & _ & F). rewrite E, F.
  destruct (Nat.eqb_spec rank 0); [lia|]. destruct (Nat.leb_spec l 1); [|lia]. split; reflexivity.
Qed.
(** Before MPI is ready the first message is preceded by one warning that the process is not known, subject to the same level, and every process writes the file. *)
Theorem c97_early l (ms : msgs) : (l <= 4)%nat -> ms <> [] ->
  let s := run false rank false noRank (json l ms) in
  out s = those (fun m => (l <=? m) && (2 <=? m) && (m <? 4))%nat ((3%nat, noRank) :: ms) /\ err s = those (fun m => (l <=? m) && (4 <=? m))%nat ms /\
  file s = those (fun m => l <=? m)%nat ((3%nat, noRank) :: ms).
Proof.
  intros _ N. unfold run, json. cbn [fold_left step start]. cbv zeta.
  match goal with |- context [fold_left _ _ ?s0] => set (s := s0) end.
  assert (E : fold_left (step false rank false noRank) (map (fun m => Message (fst m) (snd m)) ms) s =
              fold_left (step false rank false noRank) (map (fun m => Message (fst m) (snd m)) ms) (setupLogs false rank false noRank s)).
  { destruct ms as [|[k t] ms']; [contradiction|]. cbn [map fold_left fst snd step]. f_equal. f_equal.
    assert (R : ready (setupLogs false rank false noRank s) = true) by (unfold s, setupLogs, record_; cbn [andb ready filter_]; destruct (l <=? 3)%nat; reflexivity). rewrite R. reflexivity. }
  rewrite E. set (z := setupLogs false rank false noRank s).
  assert (Z : ready z = true /\ filter_ z = l /\ out z = (if (l <=? 3)%nat then [noRank] else []) /\ err z = [] /\ file z = (if (l <=? 3)%nat then [noRank] else []) /\ fileSink z = true).
  { unfold z, s, setupLogs, record_. cbn [andb ready filter_ threshold]. destruct (l <=? 3)%nat; cbn; auto 10. }
  destruct Z as (R & F & O & Er & Fi & Fs). destruct (steps false false ms z R) as (A & B & C). cbv zeta in A, B, C. rewrite A, B, C, F, O, Er, Fi, Fs, !those_cons.
  destruct (l <=? 3)%nat; auto.
Qed.
(** On every process an error always reaches the error stream. *)
Theorem c97_errors release w l (ms : msgs) t : (l <= 4)%nat -> In (4%nat, t) ms ->
  In t (err (run release rank true noRank (json l ms))) /\ In t (err (run release rank true noRank (conf w l ms))).
Proof.
  intros L H. assert (G : forall p : nat -> bool, p 4%nat = true -> In t (those p ms)) by (intros p P; unfold those; apply (in_map snd _ (4%nat, t)); apply filter_In; split; [exact H|exact P]).
  assert (L4 : (l <=? 4)%nat = true) by (apply Nat.leb_le; exact L). split.
  - destruct release; [destruct (c97_level_refuted l ms L) as (_ & E & _)|destruct (c97_json l ms L) as (_ & E & _)]; rewrite E; apply G; rewrite ?L4; reflexivity.
  - destruct (c97_conf release w l ms L) as (_ & E & _). rewrite E. apply G. rewrite L4. reflexivity.
Qed.
End MESSAGES.
Print Assumptions c97_json.
Print Assumptions c97_conf.
Print Assumptions c97_level_refuted.
Print Assumptions c97_file_refuted.
Print Assumptions c97_early.
Print Assumptions c97_errors.
(** Only warnings asked for: the same parameters with and without assertions, and in the old format; and all levels on a second process. *)
Example c97_ok : let ms := [(0, "d"); (2, "i"); (3, "w"); (4, "e")]%nat%string in
  In (4%nat, "e"%string) ms /\
  out (run false 0 true "n" (json 3 ms))%string = ["w"]%string /\ out (run true 0 true "n" (json 3 ms))%string = ["i"; "w"]%string /\ out (run true 0 true "n" (conf "old" 3 ms))%string = ["old"; "w"]%string /\
  file (run false 1 true "n" (json 0 ms))%string = ["d"; "i"; "w"; "e"]%string /\ file (run true 1 true "n" (json 0 ms))%string = ["i"; "w"; "e"]%string /\ file (run false 1 true "n" (conf "old" 0 ms))%string = [] /\
  out (run false 1 false "n" (json 3 ms))%string = ["n"; "w"]%string.
Proof. cbv zeta. split; [cbn; tauto|]. repeat split. Qed.
