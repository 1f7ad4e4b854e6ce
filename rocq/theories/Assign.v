(** Straight-line programs of assignments to an array-like store. Library. *)
From Verif Require Export Sums.
Set Implicit Arguments.

Section ASSIGN.
Variable K : Type.
Variable Kdec : forall x y : K, {x = y} + {x <> y}.

Definition store := K -> R.
Definition asg := (K * (store -> R))%type.

Definition upd (st : store) (k : K) (v : R) : store :=
  fun k' => if Kdec k k' then v else st k'.

(** Execute the assignments in order; each right-hand side reads the current store. *)
Definition exec (prog : list asg) (st : store) : store :=
  fold_left (fun s a => upd s (fst a) (snd a s)) prog st.

Definition keys (prog : list asg) : list K := map fst prog.

Lemma exec_app p1 p2 st : exec (p1 ++ p2) st = exec p2 (exec p1 st).
Proof. unfold exec. apply fold_left_app. Qed.

Lemma exec_notin prog : forall st k, ~ In k (keys prog) -> exec prog st k = st k.
Proof.
  induction prog as [|[k0 e0] t IH]; intros st k H; [reflexivity|].
  cbn in H |- *. unfold exec in IH. rewrite IH by tauto.
  unfold upd. destruct (Kdec k0 k) as [->|]; [tauto|reflexivity].
Qed.

Lemma exec_at pre k e post st :
  ~ In k (keys post) ->
  exec (pre ++ (k, e) :: post) st k = e (exec pre st).
Proof.
  intros H. rewrite exec_app. change ((k, e) :: post) with ([(k, e)] ++ post).
  rewrite exec_app, exec_notin by exact H. cbn. unfold upd.
  destruct (Kdec k k); [reflexivity|contradiction].
Qed.

Lemma keys_app p1 p2 : keys (p1 ++ p2) = keys p1 ++ keys p2.
Proof. apply map_app. Qed.

(** In a single-assignment program a key already assigned in a prefix has its
    final value there. *)
Lemma exec_prefix_in pre post st k :
  NoDup (keys (pre ++ post)) -> In k (keys pre) ->
  exec pre st k = exec (pre ++ post) st k.
Proof.
  intros Hnd Hin. rewrite exec_app. symmetry. apply exec_notin.
  rewrite keys_app in Hnd. revert Hin Hnd. generalize (keys pre) as l1, (keys post) as l2.
  induction l1 as [|x t IH]; intros l2 Hin Hnd; [contradiction|].
  cbn in Hin, Hnd. inversion Hnd; subst. destruct Hin as [->|Hin].
  - rewrite in_app_iff in *. tauto.
  - apply IH; assumption.
Qed.

(** [At prog pre k e]: the program consists of [pre], then [k := e], then more. *)
Definition At (prog pre : list asg) (k : K) (e : store -> R) : Prop :=
  exists post, prog = pre ++ (k, e) :: post.

Lemma At_here k e post : At ((k, e) :: post) [] k e.
Proof. exists post. reflexivity. Qed.

Lemma At_cons a prog pre k e : At prog pre k e -> At (a :: prog) (a :: pre) k e.
Proof. intros [post ->]. exists post. reflexivity. Qed.

Lemma At_app_l p1 p2 pre k e : At p1 pre k e -> At (p1 ++ p2) pre k e.
Proof. intros [post ->]. exists (post ++ p2). rewrite <- app_assoc. reflexivity. Qed.

Lemma At_app_r p1 p2 pre k e : At p2 pre k e -> At (p1 ++ p2) (p1 ++ pre) k e.
Proof. intros [post ->]. exists post. rewrite app_assoc. reflexivity. Qed.

Lemma seq_split_at s n i : (s <= i < s + n)%nat ->
  seq s n = seq s (i - s) ++ i :: seq (S i) (s + n - S i).
Proof.
  intros H. replace n with ((i - s) + S (s + n - S i))%nat at 1 by lia.
  rewrite seq_app. replace (s + (i - s))%nat with i by lia. reflexivity.
Qed.

Lemma At_flat_map (f : nat -> list asg) n i pre k e : (i < n)%nat ->
  At (f i) pre k e -> At (flat_map f (seq 0 n)) (flat_map f (seq 0 i) ++ pre) k e.
Proof.
  intros Hi HA. rewrite (@seq_split_at 0 n i) by lia. rewrite Nat.sub_0_r.
  rewrite flat_map_app. apply At_app_r. cbn [flat_map]. apply At_app_l. exact HA.
Qed.

Lemma At_exec prog pre k e st : NoDup (keys prog) -> At prog pre k e ->
  exec prog st k = e (exec pre st) /\
  (forall k', In k' (keys pre) -> exec pre st k' = exec prog st k') /\
  (forall k', ~ In k' (keys pre) -> exec pre st k' = st k').
Proof.
  intros Hnd [post ->]. split; [|split].
  - apply exec_at. rewrite keys_app in Hnd. cbn in Hnd.
    apply NoDup_remove_2 in Hnd. rewrite in_app_iff in Hnd. tauto.
  - intros k' H. apply exec_prefix_in; assumption.
  - intros k' H. apply exec_notin. exact H.
Qed.

Lemma in_keys_flat_map A (f : A -> list asg) l k :
  In k (keys (flat_map f l)) <-> exists x, In x l /\ In k (keys (f x)).
Proof.
  unfold keys. rewrite in_map_iff. split.
  - intros [a [E H]]. apply in_flat_map in H. destruct H as [x [Hx Ha]].
    exists x. split; [assumption|]. rewrite in_map_iff. eauto.
  - intros [x [Hx H]]. rewrite in_map_iff in H. destruct H as [a [E Ha]].
    exists a. split; [assumption|]. apply in_flat_map. eauto.
Qed.

Lemma NoDup_app_i A (l1 l2 : list A) :
  NoDup l1 -> NoDup l2 -> (forall x, In x l1 -> In x l2 -> False) -> NoDup (l1 ++ l2).
Proof.
  induction l1 as [|x t IH]; simpl; intros H1 H2 Hd; [assumption|].
  inversion H1; subst. constructor.
  - rewrite in_app_iff. intros [H|H]; [contradiction|].
    exact (Hd x (or_introl eq_refl) H).
  - apply IH; auto. intros y Hy Hy2. exact (Hd y (or_intror Hy) Hy2).
Qed.

Lemma NoDup_keys_flat_map A (f : A -> list asg) l :
  NoDup l -> (forall x, In x l -> NoDup (keys (f x))) ->
  (forall x y k, In x l -> In y l -> x <> y ->
     In k (keys (f x)) -> In k (keys (f y)) -> False) ->
  NoDup (keys (flat_map f l)).
Proof.
  induction l as [|x t IH]; intros Hnd H1 H2; [constructor|].
  cbn [flat_map]. rewrite keys_app. inversion Hnd as [|? ? Hx Ht]; subst.
  apply NoDup_app_i.
  - apply H1. left; reflexivity.
  - apply IH; auto.
    + intros y Hy. apply H1. right; assumption.
    + intros y z k Hy Hz. apply H2; right; assumption.
  - intros k Hk Hk2. apply in_keys_flat_map in Hk2. destruct Hk2 as [y [Hy Hk2]].
    apply (H2 x y k); [left; reflexivity|right; assumption| |assumption|assumption].
    intros ->. contradiction.
Qed.

End ASSIGN.
