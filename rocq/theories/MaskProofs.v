(** What the masks contain. *)
From Verif Require Import MaskModel.
Open Scope R_scope.

Lemma rowEq_spec a b : rowEq a b = true <-> a = b.
Proof. unfold rowEq. destruct (list_eq_dec Nat.eq_dec a b); split; auto; discriminate. Qed.
Section LOOP.
Variables (ids : list nat) (valid : rowIndex -> bool).
(** [P r e]: the entries switched off. *)
Definition represents (g : option mask) (P : rowIndex -> nat -> Prop) : Prop :=
  exists m, g = Some m /\ forall r e, m r e = false <-> P r e.
Lemma rep_ext g P Q : represents g P -> (forall r e, P r e <-> Q r e) -> represents g Q.
Proof using. intros [m [E H]] HPQ. exists m. split; auto. intros. rewrite H. apply HPQ. Qed.
Lemma rep_cluster r l : forall g P,
  (forall id, In id l -> In id ids /\ valid r = true /\ (id < length ids)%nat) ->
  represents g P ->
  represents (fold_left (maskCluster ids valid r) l g) (fun r' e => P r' e \/ (r' = r /\ In e l)).
Proof using.
  induction l as [|id l IH]; intros g P Hok H.
  - cbn [fold_left]. eapply rep_ext; [exact H|]. cbn. tauto.
  - cbn [fold_left]. destruct H as [m [-> Hm]]. destruct (Hok id (or_introl eq_refl)) as [Hi [Hv Hlt]].
    cbn [maskCluster]. rewrite (proj2 (existsb_exists _ _)) by (exists id; split; auto; apply Nat.eqb_refl).
    rewrite Hv, (proj2 (Nat.ltb_lt _ _) Hlt). cbn [andb].
    eapply rep_ext; [apply (IH _ (fun r' e => P r' e \/ (r' = r /\ e = id)))|].
    + intros. apply Hok. right. auto.
    + eexists; split; [reflexivity|]. intros r' e. unfold setMask.
      destruct (rowEq r r') eqn:E1, (Nat.eqb_spec id e); cbn [andb].
      1: apply rowEq_spec in E1; subst; tauto.
      all: rewrite Hm; split; auto; intros [?|[? ?]]; auto; subst; try congruence; rewrite (proj2 (rowEq_spec r r) eq_refl) in E1; discriminate.
    + intros r' e. cbn [In]. intuition auto.
Qed.
Lemma rep_point h pts : forall g P,
  (forall r p, In (r, p) pts -> isSink h p = true -> forall id, In id (advecting h) -> In id ids /\ valid r = true /\ (id < length ids)%nat) ->
  represents g P ->
  represents (fold_left (maskPoint ids valid h) pts g) (fun r e => P r e \/ exists p, In (r, p) pts /\ isSink h p = true /\ In e (advecting h)).
Proof using.
  induction pts as [|[r p] pts IH]; intros g P Hok H.
  - cbn [fold_left]. eapply rep_ext; [exact H|]. cbn. firstorder.
  - cbn [fold_left]. unfold maskPoint at 2. cbn [fst snd].
    assert (Hok' : forall r0 p0, In (r0, p0) pts -> isSink h p0 = true -> forall id, In id (advecting h) -> In id ids /\ valid r0 = true /\ (id < length ids)%nat)
      by (intros; eapply Hok; eauto; right; auto).
    destruct (isSink h p) eqn:Es.
    + eapply rep_ext; [apply (IH _ (fun r' e => P r' e \/ (r' = r /\ In e (advecting h)))); auto|].
      * apply rep_cluster; auto. intros. eapply Hok; eauto. left; auto.
      * intros r' e. cbn [In]. split.
        -- intros [[H1|[-> H1]]|[p' [H1 H2]]]; [left; auto|right; exists p; auto|right; exists p'; auto].
        -- intros [H1|[p' [[H1|H1] H2]]]; [auto|inversion H1; subst; left; right; tauto|right; exists p'; auto].
    + eapply rep_ext; [apply IH; eauto|]. intros r' e. cbn [In]. split.
      * intros [H1|[p' [H1 H2]]]; [auto|right; exists p'; auto].
      * intros [H1|[p' [[H1|H1] H2]]]; [auto|inversion H1; subst; destruct H2; congruence|right; exists p'; auto].
Qed.
Lemma rep_handlers pts hs : forall g P,
  (forall h r p, In h hs -> In (r, p) pts -> isSink h p = true -> forall id, In id (advecting h) -> In id ids /\ valid r = true /\ (id < length ids)%nat) ->
  represents g P ->
  represents (fold_left (maskHandler ids valid pts) hs g)
    (fun r e => P r e \/ exists h p, In h hs /\ In (r, p) pts /\ isSink h p = true /\ In e (advecting h)).
Proof using.
  induction hs as [|h hs IH]; intros g P Hok H.
  - cbn [fold_left]. eapply rep_ext; [exact H|]. cbn. firstorder.
  - cbn [fold_left]. unfold maskHandler at 2.
    eapply rep_ext; [apply IH|].
    + intros. eapply Hok; eauto. right; auto.
    + apply rep_point; [|exact H]. intros. eapply Hok; eauto. left; auto.
    + intros r e. cbn [In]. split.
      * intros [[H1|[p H1]]|[h' [p H1]]]; [auto|right; exists h, p; tauto|right; exists h', p; tauto].
      * intros [H1|[h' [p [[H1|H1] H2]]]]; [auto|subst; left; right; exists p; auto|right; exists h', p; auto].
Qed.
Lemma mask_exact pts hs :
  (forall h r p, In h hs -> In (r, p) pts -> isSink h p = true -> forall id, In id (advecting h) -> In id ids /\ valid r = true /\ (id < length ids)%nat) ->
  exists m, maskAll ids valid pts hs = Some m /\
  forall r e, m r e = false <-> exists h p, In h hs /\ In (r, p) pts /\ isSink h p = true /\ In e (advecting h).
Proof using.
  intros Hok. destruct (@rep_handlers pts hs (Some (fun _ _ => true)) (fun _ _ => False) Hok) as [m [E H]].
  - exists (fun _ _ => true). split; [reflexivity|]. split; [discriminate|tauto].
  - exists m. split; [exact E|]. intros r e. rewrite H. tauto.
Qed.
Lemma fold_none pts hs : fold_left (maskHandler ids valid pts) hs None = None.
Proof using.
  assert (A : forall r l, fold_left (maskCluster ids valid r) l None = None) by (intros r l; induction l; auto).
  assert (B : forall h ps, fold_left (maskPoint ids valid h) ps None = None).
  { intros h ps. induction ps as [|p ps IH]; auto. cbn [fold_left]. unfold maskPoint at 2. destruct (isSink h (snd p)); [rewrite A|]; auto. }
  induction hs; auto. cbn [fold_left]. unfold maskHandler at 2. rewrite B. auto.
Qed.
(** A cluster which is not in the list, or whose id exceeds the number of entries, stops the run. *)
Lemma mask_fails pts hs h r p id :
  In h hs -> In (r, p) pts -> isSink h p = true -> In id (advecting h) -> ~ (In id ids /\ valid r = true /\ (id < length ids)%nat) ->
  maskAll ids valid pts hs = None.
Proof using.
  intros Hh Hp Hs Hid Hbad. unfold maskAll.
  assert (A : forall r l g, (exists id, In id l /\ ~ (In id ids /\ valid r = true /\ (id < length ids)%nat)) -> fold_left (maskCluster ids valid r) l g = None).
  { clear. intros r l. induction l as [|x l IH]; intros g [id [Hi Hb]]; [destruct Hi|]; destruct Hi as [->|Hi]; cbn [fold_left] in *.
    - replace (maskCluster ids valid r g id) with (@None mask); [clear IH; induction l; auto|].
      unfold maskCluster. destruct g as [g|]; [|reflexivity].
      destruct (existsb (Nat.eqb id) ids) eqn:E1; [|reflexivity]. apply existsb_exists in E1. destruct E1 as [y [H1 H2]]. apply Nat.eqb_eq in H2. subst y.
      destruct (valid r) eqn:E2; [|reflexivity]. destruct (Nat.ltb_spec id (length ids)); [|reflexivity]. exfalso. tauto.
    - apply IH. exists id. auto. }
  assert (B : forall g, fold_left (maskPoint ids valid h) pts g = None).
  { clear Hh. induction pts as [|q qs IH]; [destruct Hp|]. intros g. cbn [fold_left]. destruct Hp as [->|Hp]; [|auto].
    unfold maskPoint at 2. cbn [snd fst]. rewrite Hs, A by (exists id; auto).
    clear. induction qs as [|q qs IH]; auto. cbn [fold_left]. unfold maskPoint at 2. destruct (isSink h (snd q)); [|exact IH].
    replace (fold_left (maskCluster ids valid (fst q)) (advecting h) None) with (@None mask); [exact IH|]. induction (advecting h); auto. }
  revert Hh. generalize (Some (fun (_ : rowIndex) (_ : nat) => true)). induction hs as [|h' hs' IH]; intros g Hh; [destruct Hh|]. destruct Hh as [->|Hh].
  - cbn [fold_left]. unfold maskHandler at 2. rewrite B. apply fold_none.
  - cbn [fold_left]. auto.
Qed.
End LOOP.
