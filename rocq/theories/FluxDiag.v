(** Diagonal (reduced) Jacobian and connectivity of the reactions. *)
From Verif Require Export FluxModel FluxProofs.
Open Scope R_scope.

(** ** Ids
    Every moment id belongs to one cluster and one axis, and is not a cluster id
    (ReactionNetwork::generateClusterIds / Reaction.h:213-229 copyMomentIds; see
    property C16). [isCl d] says that [d] is a cluster id. *)
Record wfIds (isCl : nat -> Prop) (mid : nat -> nat -> option nat) : Prop := {
  w_inj : forall c k c' k' d, mid c k = Some d -> mid c' k' = Some d -> c = c' /\ k = k';
  w_fresh : forall c k d, mid c k = Some d -> ~ isCl d
}.

Record wfProd (isCl : nat -> Prop) (mid : nat -> nat -> option nat) (x : prx) : Prop := {
  p_ra : isCl (ra x); p_rb : isCl (rb x);
  p_pid : forall p d, pid x p = Some d -> isCl d;
  p_ma : forall k, ma x k = mid (ra x) k;
  p_mb : forall k, mb x k = mid (rb x) k;
  p_mp : forall p d k, pid x p = Some d -> mp x p k = mid d k
}.

Record wfDiss (isCl : nat -> Prop) (mid : nat -> nat -> option nat) (y : drx) : Prop := {
  d_rp : isCl (rp y);
  d_pid : forall p, isCl (dpid y p);
  d_mr : forall k, mr y k = mid (rp y) k;
  d_mp : forall p k, dmp y p k = mid (dpid y p) k
}.

(** ** Diagonal filter *)
Definition diag (e : option nat * option nat * R) : bool := ideqb (fst (fst e)) (snd (fst e)).

Lemma filter_flat_map A B (p : B -> bool) (f : A -> list B) l :
  filter p (flat_map f l) = flat_map (fun a => filter p (f a)) l.
Proof. induction l as [|a t IH]; simpl; [reflexivity|]. rewrite filter_app, IH. reflexivity. Qed.
Lemma filter_guard A (p : A -> bool) o l : filter p (guard o l) = guard o (filter p l).
Proof. destruct o; reflexivity. Qed.
Lemma filter_one A (p : A -> bool) a : filter p [a] = when (p a) [a].
Proof. simpl. destruct (p a); reflexivity. Qed.
Lemma filter_cons A (p : A -> bool) a l : filter p (a :: l) = when (p a) [a] ++ filter p l.
Proof. simpl. destruct (p a); reflexivity. Qed.
Lemma flat_map_ext_in A B (f g : A -> list B) l :
  (forall a, In a l -> f a = g a) -> flat_map f l = flat_map g l.
Proof.
  induction l as [|a t IH]; intros H; simpl; [reflexivity|].
  rewrite (H a) by (left; reflexivity). rewrite IH; [reflexivity|]. intros b Hb; apply H; right; exact Hb.
Qed.
Lemma flat_map_nil A B (f : A -> list B) l : (forall a, In a l -> f a = []) -> flat_map f l = [].
Proof.
  induction l as [|a t IH]; intros H; simpl; [reflexivity|].
  rewrite (H a) by (left; reflexivity). apply IH. intros b Hb; apply H; right; exact Hb.
Qed.

Definition total (l : jcontribs) : Prop :=
  forall o o' v, In (o, o', v) l -> o <> None /\ o' <> None.

Lemma jacc_diag l r c : total l ->
  jacc (filter diag l) r c = if (r =? c)%nat then jacc l r c else 0.
Proof.
  induction l as [|[[o o'] v] t IH]; intros H; simpl.
  - rewrite jacc_nil. destruct (r =? c)%nat; reflexivity.
  - assert (Ht : total t) by (intros a b w Hin; apply (H a b w); right; exact Hin).
    specialize (IH Ht). destruct (H o o' v) as [Ho Ho']; [left; reflexivity|].
    destruct o as [a|]; [|congruence]. destruct o' as [b|]; [|congruence].
    unfold diag at 1; cbn [fst snd ideqb].
    destruct (Nat.eqb_spec a b) as [->|Hab].
    + rewrite !jacc_cons, IH. cbn [oeqb]. unfold ind.
      destruct (Nat.eqb_spec b r), (Nat.eqb_spec b c), (Nat.eqb_spec r c); subst; try congruence; lra.
    + rewrite IH, jacc_cons. cbn [oeqb]. unfold ind.
      destruct (Nat.eqb_spec a r), (Nat.eqb_spec b c), (Nat.eqb_spec r c); subst; try congruence; lra.
Qed.

Lemma ideqb_true o o' : ideqb o o' = true <-> o = o'.
Proof.
  destruct o, o'; cbn [ideqb]; split; intros H; try congruence.
  - apply Nat.eqb_eq in H. congruence.
  - inversion H. apply Nat.eqb_refl.
Qed.
Lemma ideqb_false o o' : o <> o' -> ideqb o o' = false.
Proof. intros H. destruct (ideqb o o') eqn:E; [|reflexivity]. apply ideqb_true in E. contradiction. Qed.
Lemma ideqb_refl o : ideqb o o = true.
Proof. apply ideqb_true. reflexivity. Qed.

(** Values: both routines write the same real number in different shapes. *)
Lemma sing_val (a b : option nat) (v v' : R) : v = v' -> [(a, b, v)] = [(a, b, v')].
Proof. congruence. Qed.
Ltac rval := apply sing_val; unfold Rdiv; ring.

Section PROD.
Variables (isCl : nat -> Prop) (mid : nat -> nat -> option nat) (x : prx) (conc : nat -> R).
Hypothesis W : wfIds isCl mid.
Hypothesis P : wfProd isCl mid x.

Lemma mom_not_cl c k d : isCl d -> mid c k <> Some d.
Proof. intros Hd E. exact (w_fresh _ _ W _ _ _ E Hd). Qed.

Lemma ma_cl k d : isCl d -> ma x k <> Some d.
Proof. rewrite (p_ma _ _ _ P). apply mom_not_cl. Qed.
Lemma mb_cl k d : isCl d -> mb x k <> Some d.
Proof. rewrite (p_mb _ _ _ P). apply mom_not_cl. Qed.
Lemma mp_cl p e k d : pid x p = Some e -> isCl d -> mp x p k <> Some d.
Proof. intros E. rewrite (p_mp _ _ _ P _ _ _ E). apply mom_not_cl. Qed.

Lemma ma_inj k i : ma x k <> None -> ideqb (ma x k) (ma x i) = (k =? i)%nat.
Proof.
  rewrite !(p_ma _ _ _ P). intros H. destruct (Nat.eqb_spec k i) as [->|N]; [apply ideqb_refl|].
  apply ideqb_false. intros E. destruct (mid (ra x) k) as [d|] eqn:Ek; [|congruence].
  destruct (w_inj _ _ W _ _ _ _ _ Ek (eq_sym E)). congruence.
Qed.
Lemma mb_inj k i : mb x k <> None -> ideqb (mb x k) (mb x i) = (k =? i)%nat.
Proof.
  rewrite !(p_mb _ _ _ P). intros H. destruct (Nat.eqb_spec k i) as [->|N]; [apply ideqb_refl|].
  apply ideqb_false. intros E. destruct (mid (rb x) k) as [d|] eqn:Ek; [|congruence].
  destruct (w_inj _ _ W _ _ _ _ _ Ek (eq_sym E)). congruence.
Qed.

Lemma filter_zeroRows_m col t : (forall d, isCl d -> col <> Some d) ->
  filter diag (zeroRows x col t) = [].
Proof.
  intros H. unfold zeroRows. rewrite filter_app, !filter_cons, filter_flat_map.
  unfold diag; cbn [fst snd].
  rewrite !ideqb_false.
  2,3: intros E; symmetry in E; revert E; apply H; apply P.
  cbn [when app filter]. apply flat_map_nil. intros p _.
  destruct (pid x p) as [d|] eqn:E; cbn [guard filter diag fst snd]; [|reflexivity].
  rewrite ideqb_false; [reflexivity|].
  intros E'; symmetry in E'; revert E'; apply H. exact (p_pid _ _ _ P _ _ E).
Qed.

Lemma filter_zeroRows_c c t :
  filter diag (zeroRows x (Some c) t) =
  when (ra x =? c)%nat [(Some (ra x), Some c, - (rate x * t / va x))]
  ++ when (rb x =? c)%nat [(Some (rb x), Some c, - (rate x * t / vb x))]
  ++ flat_map (fun p => when (oeqb (pid x p) c) [(pid x p, Some c, rate x * t / vp x p)]) two.
Proof.
  unfold zeroRows. rewrite filter_app, !filter_cons, filter_flat_map.
  unfold diag at 1 2; cbn [fst snd ideqb filter app]. rewrite app_nil_r, app_assoc. f_equal.
  apply flat_map_ext. intros p.
  destruct (pid x p) as [d|] eqn:E; cbn [guard filter diag fst snd oeqb ideqb when]; [|reflexivity].
  destruct (d =? c)%nat; reflexivity.
Qed.

(** A moment row only keeps the moment columns. *)
Lemma filter_momentRow row w s k : (forall d, isCl d -> row <> Some d) ->
  filter diag (momentRow x conc row w s k) =
  guard row (flat_map (fun i =>
    when (ideqb row (ma x i)) [(row, ma x i, w * dA1 x conc i s (S k))]
    ++ when (ideqb row (mb x i)) [(row, mb x i, w * dB1 x conc i s (S k))]) (xaxes x)).
Proof.
  intros H. unfold momentRow. rewrite filter_guard. destruct row as [d|]; [|reflexivity].
  cbn [guard]. rewrite filter_app, !filter_cons, filter_flat_map.
  unfold diag at 1 2; cbn [fst snd].
  rewrite !ideqb_false by (apply H; apply P). cbn [when app filter].
  apply flat_map_ext. intros i. rewrite filter_app, !filter_guard, !filter_one.
  unfold diag; cbn [fst snd]. f_equal.
  - destruct (ma x i); reflexivity.
  - destruct (mb x i); reflexivity.
Qed.

Lemma prodReduced_filter : prodReduced x conc = filter diag (prodPartials x conc).
Proof.
  unfold prodPartials, prodReduced, redZero.
  rewrite !filter_app, !filter_flat_map.
  rewrite !filter_zeroRows_c, !Nat.eqb_refl.
  rewrite (flat_map_nil _ _ (fun a => filter diag (guard (ma x a) _ ++ _))).
  2:{ intros i _. rewrite filter_app, !filter_guard.
      rewrite !filter_zeroRows_m by (intros; first [apply ma_cl|apply mb_cl]; assumption).
      destruct (ma x i), (mb x i); reflexivity. }
  cbn [app]. rewrite <- !app_assoc. cbn [when app].
  rewrite (Nat.eqb_sym (ra x) (rb x)).
  f_equal. f_equal. f_equal. f_equal. cbn [app].
  apply (f_equal (cons _)). f_equal. f_equal.
  - apply flat_map_ext. intros k. rewrite filter_app. f_equal.
    + rewrite filter_momentRow by (intros; apply ma_cl; assumption).
      destruct (ma x k) as [d|] eqn:E; [|reflexivity]. cbn [guard].
      apply flat_map_ext. intros i. rewrite <- E, ma_inj by congruence.
      f_equal; unfold when; (match goal with |- (if ?b then _ else _) = _ => destruct b end;
        [rval|reflexivity]).
    + rewrite filter_momentRow by (intros; apply mb_cl; assumption).
      destruct (mb x k) as [d|] eqn:E; [|reflexivity]. cbn [guard].
      apply flat_map_ext. intros i. rewrite <- E, mb_inj by congruence.
      f_equal; unfold when; (match goal with |- (if ?b then _ else _) = _ => destruct b end;
        [rval|reflexivity]).
  - apply flat_map_ext. intros p. rewrite filter_guard.
    destruct (pid x p) as [e|] eqn:Ep; [|reflexivity]. cbn [guard]. rewrite filter_flat_map.
    apply flat_map_ext. intros k.
    rewrite filter_momentRow by (intros; eapply mp_cl; eassumption).
    destruct (mp x p k) as [d|] eqn:E; [|reflexivity]. cbn [guard].
    apply flat_map_ext. intros i.
    f_equal; unfold when; (match goal with |- (if ?b then _ else _) = _ => destruct b end;
        [rval|reflexivity]).
Qed.
End PROD.

(** ** Membership of the Jacobian entries in the connectivity *)
Definition entries (l : jcontribs) : pairs := map fst l.

Lemma in_guard A (a : A) o l : In a (guard o l) <-> o <> None /\ In a l.
Proof. destruct o; cbn [guard]; split; intros H; try (split; [congruence|tauto]); destruct H; tauto || congruence. Qed.
Lemma in_when A (a : A) b l : In a (when b l) <-> b = true /\ In a l.
Proof. destruct b; cbn [when]; split; intros H; try tauto; destruct H; tauto || congruence. Qed.

Ltac inb H :=
  repeat first
  [ rewrite in_app_iff in H | rewrite in_flat_map in H | rewrite in_guard in H | rewrite in_when in H ];
  cbn [In] in H.

(** The pairs coupling one participant (rows) to one reactant (columns). *)
Definition Kind (n : nat) (r : nat) (m : nat -> option nat) (r' : nat) (m' : nat -> option nat)
  (e : option nat * option nat) : Prop :=
  e = (Some r, Some r')
  \/ (exists i, i < n /\ m' i <> None /\ e = (Some r, m' i))%nat
  \/ (exists k, k < n /\ m k <> None /\ e = (m k, Some r'))%nat
  \/ (exists k i, k < n /\ i < n /\ m k <> None /\ m' i <> None /\ e = (m k, m' i))%nat.

Lemma Kind_total n r m r' m' o o' : Kind n r m r' m' (o, o') -> o <> None /\ o' <> None.
Proof.
  intros [E|[(i & _ & H & E)|[(k & _ & H & E)|(k & i & _ & _ & H & H' & E)]]];
    inversion E; subst; split; congruence || assumption.
Qed.

Lemma in_seq0 i n : (i < n)%nat -> In i (seq 0 n).
Proof. intros. apply in_seq. lia. Qed.

Ltac conn_solve :=
  repeat first
  [ rewrite in_app_iff | rewrite in_flat_map | rewrite in_guard ]; cbn [In].

Lemma connCross_Kind x r m r' m' e : Kind (xna x) r m r' m' e -> In e (connCross x r m r' m').
Proof.
  unfold connCross, xaxes. intros [E|[(i & Hi & H & E)|[(k & Hk & H & E)|(k & i & Hk & Hi & H & H' & E)]]]; subst e.
  - left; reflexivity.
  - right. apply in_flat_map. exists i. split; [apply in_seq0; exact Hi|].
    apply in_app_iff. left. apply in_guard. split; [exact H|left; reflexivity].
  - right. apply in_flat_map. exists k. split; [apply in_seq0; exact Hk|].
    apply in_app_iff. right. apply in_guard. split; [exact H|left; reflexivity].
  - right. apply in_flat_map. exists k. split; [apply in_seq0; exact Hk|].
    apply in_app_iff. right. apply in_guard. split; [exact H|]. right.
    apply in_flat_map. exists i. split; [apply in_seq0; exact Hi|].
    apply in_guard. split; [exact H'|left; reflexivity].
Qed.

Lemma connSelf_Kind x r m e : Kind (xna x) r m r m e -> In e (connSelf x r m).
Proof.
  unfold connSelf, xaxes. intros [E|[(i & Hi & H & E)|[(k & Hk & H & E)|(k & i & Hk & Hi & H & H' & E)]]]; subst e.
  - left; reflexivity.
  - right. apply in_flat_map. exists i. split; [apply in_seq0; exact Hi|].
    apply in_guard. split; [exact H|left; reflexivity].
  - right. apply in_flat_map. exists k. split; [apply in_seq0; exact Hk|].
    apply in_guard. split; [exact H|right; left; reflexivity].
  - right. apply in_flat_map. exists k. split; [apply in_seq0; exact Hk|].
    apply in_guard. split; [exact H|]. right. right.
    apply in_flat_map. exists i. split; [apply in_seq0; exact Hi|].
    apply in_guard. split; [exact H'|left; reflexivity].
Qed.

Section PCONTAIN.
Variables (x : prx) (conc : nat -> R).
Definition reactant (r : nat) (m : nat -> option nat) : Prop :=
  (r = ra x /\ m = ma x) \/ (r = rb x /\ m = mb x).
Definition participant (r : nat) (m : nat -> option nat) : Prop :=
  reactant r m \/ exists p, (p < 2)%nat /\ pid x p = Some r /\ m = mp x p.
Definition coupled (e : option nat * option nat) : Prop :=
  exists r m r' m', participant r m /\ reactant r' m' /\ Kind (xna x) r m r' m' e.

Lemma prodConn_coupled e : coupled e -> In e (prodConn x).
Proof.
  intros (r & m & r' & m' & Hp & Hr & K). unfold prodConn.
  repeat rewrite in_app_iff.
  destruct Hp as [[[-> ->]|[-> ->]]|(p & Hp & E & ->)], Hr as [[-> ->]|[-> ->]].
  - left. apply connSelf_Kind; exact K.
  - right; right; left. apply connCross_Kind; exact K.
  - right; left. apply connCross_Kind; exact K.
  - right; right; right; left. apply connSelf_Kind; exact K.
  - right; right; right; right. apply in_flat_map. exists p. split; [apply in_seq0; exact Hp|].
    rewrite E. apply in_app_iff. left. apply connCross_Kind; exact K.
  - right; right; right; right. apply in_flat_map. exists p. split; [apply in_seq0; exact Hp|].
    rewrite E. apply in_app_iff. right. apply connCross_Kind; exact K.
Qed.

Definition allC (l : jcontribs) : Prop := forall e, In e l -> coupled (fst e).
Lemma allC_app l1 l2 : allC l1 -> allC l2 -> allC (l1 ++ l2).
Proof. intros H1 H2 e He. apply in_app_iff in He as [He|He]; auto. Qed.
Lemma allC_flat_map A (f : A -> jcontribs) l : (forall a, In a l -> allC (f a)) -> allC (flat_map f l).
Proof. intros H e He. apply in_flat_map in He as (a & Ha & He). exact (H a Ha e He). Qed.
Lemma allC_guard o l : (o <> None -> allC l) -> allC (guard o l).
Proof. intros H e He. apply in_guard in He as [Ho He]. exact (H Ho e He). Qed.
Lemma allC_one e : coupled (fst e) -> allC [e].
Proof. intros H e' [<-|[]]. exact H. Qed.
Lemma allC_cons e l : coupled (fst e) -> allC l -> allC (e :: l).
Proof. intros H H' e' [<-|He]; auto. Qed.

Lemma rA : reactant (ra x) (ma x). Proof. left; split; reflexivity. Qed.
Lemma rB : reactant (rb x) (mb x). Proof. right; split; reflexivity. Qed.
Lemma pA : participant (ra x) (ma x). Proof. left; exact rA. Qed.
Lemma pB : participant (rb x) (mb x). Proof. left; exact rB. Qed.

(** a column of a reactant: its own id or a valid moment id *)
Definition colOf r' (m' : nat -> option nat) (c : option nat) : Prop :=
  c = Some r' \/ exists i, (i < xna x)%nat /\ m' i <> None /\ c = m' i.
Lemma coupled0 r m r' m' c : participant r m -> reactant r' m' -> colOf r' m' c -> coupled (Some r, c).
Proof.
  intros Hp Hr Hc. exists r, m, r', m'. split; [exact Hp|]. split; [exact Hr|].
  destruct Hc as [->|(i & Hi & H & ->)]; [left; reflexivity|].
  right; left. exists i. repeat split; assumption.
Qed.
Lemma coupled1 r m r' m' k c : participant r m -> reactant r' m' -> (k < xna x)%nat -> m k <> None ->
  colOf r' m' c -> coupled (m k, c).
Proof.
  intros Hp Hr Hk Hm Hc. exists r, m, r', m'. split; [exact Hp|]. split; [exact Hr|].
  destruct Hc as [->|(i & Hi & H & ->)]; right; right; [left; exists k|right; exists k, i]; repeat split; assumption.
Qed.

Lemma zeroRows_C r' m' c t : reactant r' m' -> colOf r' m' c -> allC (zeroRows x c t).
Proof.
  intros Hr Hc. unfold zeroRows. apply allC_app.
  - apply allC_cons; [|apply allC_one]; cbn [fst]; eapply coupled0; try eassumption; [exact pA|exact pB].
  - apply allC_flat_map. intros p Hp. apply allC_guard. intros Ho. apply allC_one. cbn [fst].
    destruct (pid x p) as [d|] eqn:E; [|congruence]. eapply coupled0; try eassumption.
    right. exists p. apply in_seq in Hp. repeat split; [lia|exact E].
Qed.

Lemma momentRow_C r m w s k : participant r m -> (k < xna x)%nat -> allC (momentRow x conc (m k) w s k).
Proof.
  intros Hp Hk. unfold momentRow. apply allC_guard. intros Ho. apply allC_app.
  - apply allC_cons; [|apply allC_one]; cbn [fst];
      [eapply coupled1 with (2 := rA)|eapply coupled1 with (2 := rB)]; try eassumption; left; reflexivity.
  - apply allC_flat_map. intros i Hi. apply in_seq in Hi.
    apply allC_app; apply allC_guard; intros Hm; apply allC_one; cbn [fst];
      [eapply coupled1 with (2 := rA)|eapply coupled1 with (2 := rB)]; try eassumption;
      right; exists i; repeat split; (lia || assumption).
Qed.

Lemma prodPartials_C : allC (prodPartials x conc).
Proof.
  unfold prodPartials. apply allC_app; [|apply allC_app; [|apply allC_app; [|apply allC_app]]].
  - eapply zeroRows_C; [exact rA|left; reflexivity].
  - eapply zeroRows_C; [exact rB|left; reflexivity].
  - apply allC_flat_map. intros i Hi. apply in_seq in Hi.
    apply allC_app; apply allC_guard; intros Hm;
      [eapply zeroRows_C with (1 := rA)|eapply zeroRows_C with (1 := rB)];
      right; exists i; repeat split; (lia || assumption).
  - apply allC_flat_map. intros k Hk. apply in_seq in Hk.
    apply allC_app; [eapply momentRow_C with (1 := pA)|eapply momentRow_C with (1 := pB)]; lia.
  - apply allC_flat_map. intros p Hp. apply in_seq in Hp. apply allC_guard. intros Ho.
    apply allC_flat_map. intros k Hk. apply in_seq in Hk.
    destruct (pid x p) as [d|] eqn:E; [|congruence].
    eapply momentRow_C with (r := d); [|lia]. right. exists p. repeat split; [lia|exact E].
Qed.
End PCONTAIN.

Theorem prod_contained x conc o o' v :
  In (o, o', v) (prodPartials x conc) -> In (o, o') (prodConn x) /\ o <> None /\ o' <> None.
Proof.
  intros H. pose proof (prodPartials_C x conc _ H) as C. cbn [fst] in C.
  split; [apply prodConn_coupled; exact C|].
  destruct C as (r & m & r' & m' & _ & _ & K). eapply Kind_total; exact K.
Qed.

Theorem prod_reduced isCl mid x conc r c : wfIds isCl mid -> wfProd isCl mid x ->
  jacc (prodReduced x conc) r c = if (r =? c)%nat then jacc (prodPartials x conc) r c else 0.
Proof.
  intros W P. rewrite (prodReduced_filter isCl mid x conc W P). apply jacc_diag.
  intros o o' v H. apply prod_contained in H. tauto.
Qed.

(** Reduced entries are mapped by the reduced connectivity. *)
Lemma connCrossRed_diag x d m r' m' k i : (k < xna x)%nat -> (i < xna x)%nat -> m k <> None -> m k = m' i ->
  In (m k, m' i) (connCrossRed x d m r' m').
Proof.
  intros Hk Hi Hm E. unfold connCrossRed. apply in_app_iff. right. apply in_flat_map.
  exists k. split; [apply in_seq0; exact Hk|]. apply in_guard. split; [exact Hm|].
  apply in_flat_map. exists i. split; [apply in_seq0; exact Hi|]. apply in_when.
  split; [apply ideqb_true; exact E|left; reflexivity].
Qed.
Lemma connSelfRed_diag x r m k : (k < xna x)%nat -> m k <> None -> In (m k, m k) (connSelfRed x r m).
Proof.
  intros Hk Hm. unfold connSelfRed. right. apply in_flat_map.
  exists k. split; [apply in_seq0; exact Hk|]. apply in_guard. split; [exact Hm|].
  apply in_flat_map. exists k. split; [apply in_seq0; exact Hk|]. apply in_when.
  split; [apply Nat.eqb_refl|left; reflexivity].
Qed.

Theorem prod_reduced_contained x conc o o' v :
  In (o, o', v) (prodReduced x conc) -> In (o, o') (prodConnRed x) /\ o <> None /\ o' <> None.
Proof.
  assert (C1 : forall k, (k < xna x)%nat -> ma x k <> None -> In (ma x k, ma x k) (prodConnRed x)).
  { intros. unfold prodConnRed. apply in_app_iff. left. apply connSelfRed_diag; assumption. }
  assert (C2 : forall k, (k < xna x)%nat -> mb x k <> None -> In (mb x k, mb x k) (prodConnRed x)).
  { intros. unfold prodConnRed. apply in_app_iff. right. apply in_app_iff. left. apply connSelfRed_diag; assumption. }
  assert (CA : In (Some (ra x), Some (ra x)) (prodConnRed x)) by (left; reflexivity).
  assert (CB : In (Some (rb x), Some (rb x)) (prodConnRed x)).
  { unfold prodConnRed. apply in_app_iff. right. apply in_app_iff. left. left; reflexivity. }
  unfold prodReduced, redZero. intros H. repeat rewrite in_app_iff in H.
  destruct H as [[H|[H|[H|[H|[H|H]]]]]|[H|H]].
  - destruct H as [E|[]]; inversion E; subst. repeat split; [exact CA|congruence|congruence].
  - apply in_when in H as [E [F|[]]]; inversion F; subst. apply Nat.eqb_eq in E. rewrite E.
    repeat split; [exact CA|congruence|congruence].
  - apply in_flat_map in H as (p & Hp & H). apply in_when in H as [E [F|[]]]; inversion F; subst.
    destruct (pid x p) as [d|] eqn:Ep; cbn [oeqb] in E; [|discriminate]. apply Nat.eqb_eq in E; subst d.
    repeat split; [exact CA|congruence|congruence].
  - apply in_when in H as [E [F|[]]]; inversion F; subst. apply Nat.eqb_eq in E. rewrite E.
    repeat split; [exact CA|congruence|congruence].
  - destruct H as [E|[]]; inversion E; subst. repeat split; [exact CB|congruence|congruence].
  - apply in_flat_map in H as (p & Hp & H). apply in_when in H as [E [F|[]]]; inversion F; subst.
    destruct (pid x p) as [d|] eqn:Ep; cbn [oeqb] in E; [|discriminate]. apply Nat.eqb_eq in E; subst d.
    repeat split; [exact CB|congruence|congruence].
  - apply in_flat_map in H as (k & Hk & H). apply in_seq in Hk. apply in_app_iff in H as [H|H];
      apply in_guard in H as [Hm H]; apply in_flat_map in H as (i & Hi & H); apply in_seq in Hi;
      apply in_app_iff in H as [H|H]; apply in_when in H as [E [F|[]]]; inversion F; subst;
      first [apply Nat.eqb_eq in E; subst i | apply ideqb_true in E; rewrite <- E];
      (split; [first [apply C1|apply C2]; [lia|assumption]|split; assumption]).
  - apply in_flat_map in H as (p & Hp & H). apply in_guard in H as [Ho H].
    apply in_flat_map in H as (k & Hk & H). pose proof Hk as Hk'. apply in_seq in Hk'.
    apply in_guard in H as [Hm H]; apply in_flat_map in H as (i & Hi & H); apply in_seq in Hi.
    destruct (pid x p) as [d|] eqn:Ep; [|congruence].
    assert (CP : forall q, (q < xna x)%nat -> (mp x p k = ma x q -> In (mp x p k, ma x q) (prodConnRed x))
       /\ (mp x p k = mb x q -> In (mp x p k, mb x q) (prodConnRed x))).
    { intros q Hq. split; intros Eq; unfold prodConnRed; apply in_app_iff; right; apply in_app_iff; right;
        apply in_flat_map; exists p; (split; [exact Hp|]); rewrite Ep; apply in_app_iff;
        [left|right]; apply connCrossRed_diag; try assumption; lia. }
    apply in_app_iff in H as [H|H]; apply in_when in H as [E [F|[]]]; inversion F; subst;
      apply ideqb_true in E; (split; [apply CP; [lia|exact E]|split; congruence]).
Qed.

(** ** Dissociation *)
Section DISS.
Variables (isCl : nat -> Prop) (mid : nat -> nat -> option nat) (y : drx).
Hypothesis W : wfIds isCl mid.
Hypothesis D : wfDiss isCl mid y.

Lemma mr_cl k d : isCl d -> mr y k <> Some d.
Proof. rewrite (d_mr _ _ _ D). intros Hd E. exact (w_fresh _ _ W _ _ _ E Hd). Qed.
Lemma dmp_cl p k d : isCl d -> dmp y p k <> Some d.
Proof. rewrite (d_mp _ _ _ D). intros Hd E. exact (w_fresh _ _ W _ _ _ E Hd). Qed.
Lemma mr_inj k i : mr y k <> None -> ideqb (mr y k) (mr y i) = (k =? i)%nat.
Proof.
  rewrite !(d_mr _ _ _ D). intros H. destruct (Nat.eqb_spec k i) as [->|N]; [apply ideqb_refl|].
  apply ideqb_false. intros E. destruct (mid (rp y) k) as [d|] eqn:Ek; [|congruence].
  destruct (w_inj _ _ W _ _ _ _ _ Ek (eq_sym E)). congruence.
Qed.

Lemma filter_dRow_c c w s k : isCl c ->
  filter diag (dRow y (Some c) w s k) = when (c =? rp y)%nat [(Some c, Some (rp y), w * dcf y (Co 0 0 s k))].
Proof.
  intros Hc. unfold dRow. rewrite filter_cons, filter_flat_map. unfold diag at 1; cbn [fst snd ideqb].
  rewrite (flat_map_nil _ _ _ (yaxes y)); [rewrite app_nil_r; reflexivity|].
  intros i _. rewrite filter_guard, filter_one. unfold diag; cbn [fst snd].
  rewrite ideqb_false; [destruct (mr y i); reflexivity|].
  intros E; symmetry in E; revert E; apply mr_cl; exact Hc.
Qed.
Lemma filter_dRow_m row w s k : (forall d, isCl d -> row <> Some d) ->
  guard row (filter diag (dRow y row w s k)) =
  guard row (flat_map (fun i => when (ideqb row (mr y i)) [(row, mr y i, w * dcf y (Co (S i) 0 s k))]) (yaxes y)).
Proof.
  intros H. unfold dRow. rewrite filter_cons, filter_flat_map. unfold diag at 1; cbn [fst snd].
  rewrite ideqb_false by (apply H; apply D). cbn [when app].
  destruct row as [d|]; [|reflexivity]. cbn [guard]. apply flat_map_ext. intros i.
  rewrite filter_guard, filter_one. unfold diag; cbn [fst snd]. destruct (mr y i); reflexivity.
Qed.

(** The two products are grouped along the same axes (what the guard at
    Reaction.tpp:2685 needs). *)
Definition sameGrouping : Prop := forall k, (k < yna y)%nat -> (dmp y 0 k = None <-> dmp y 1 k = None).

Lemma dissReduced_filter : sameGrouping -> dissReduced y = filter diag (dissPartials y).
Proof.
  intros SG. unfold dissReduced, dissPartials. rewrite !filter_app, !filter_flat_map.
  rewrite !filter_dRow_c by (apply D). rewrite Nat.eqb_refl. cbn [when].
  f_equal. f_equal. f_equal. apply flat_map_ext_in. intros k Hk. apply in_seq in Hk.
  rewrite !filter_app, !filter_guard, !filter_dRow_m
    by (intros; first [apply mr_cl|apply dmp_cl]; assumption).
  f_equal; [|f_equal].
  - destruct (mr y k) as [d|] eqn:E; [|reflexivity]. cbn [guard]. apply flat_map_ext. intros i.
    rewrite <- E, mr_inj by congruence. reflexivity.
  - destruct (SG k ltac:(lia)) as [S1 S2].
    destruct (dmp y 0 k), (dmp y 1 k); try reflexivity.
    + discriminate S2; reflexivity.
    + discriminate S1; reflexivity.
Qed.
End DISS.

Section DCONTAIN.
Variable y : drx.
Definition dparticipant (r : nat) (m : nat -> option nat) : Prop :=
  (r = rp y /\ m = mr y) \/ (exists p, (p < 2)%nat /\ r = dpid y p /\ m = dmp y p).
Definition dcoupled (e : option nat * option nat) : Prop :=
  exists r m, dparticipant r m /\ Kind (yna y) r m (rp y) (mr y) e.

Lemma dConnCross_Kind r m e : Kind (yna y) r m (rp y) (mr y) e -> In e (dConnCross y r m).
Proof.
  unfold dConnCross, yaxes. intros [E|[(i & Hi & H & E)|[(k & Hk & H & E)|(k & i & Hk & Hi & H & H' & E)]]]; subst e.
  - left; reflexivity.
  - right. apply in_flat_map. exists i. split; [apply in_seq0; exact Hi|].
    apply in_app_iff. left. apply in_guard. split; [exact H|left; reflexivity].
  - right. apply in_flat_map. exists k. split; [apply in_seq0; exact Hk|].
    apply in_app_iff. right. apply in_guard. split; [exact H|left; reflexivity].
  - right. apply in_flat_map. exists k. split; [apply in_seq0; exact Hk|].
    apply in_app_iff. right. apply in_guard. split; [exact H|]. right.
    apply in_flat_map. exists i. split; [apply in_seq0; exact Hi|].
    apply in_guard. split; [exact H'|left; reflexivity].
Qed.

Lemma dissConn_coupled e : dcoupled e -> In e (dissConn y).
Proof.
  intros (r & m & Hp & K). unfold dissConn. repeat rewrite in_app_iff.
  destruct Hp as [[-> ->]|(p & Hp & -> & ->)].
  - left. destruct K as [E|[(i & Hi & H & E)|[(k & Hk & H & E)|(k & i & Hk & Hi & H & H' & E)]]]; subst e.
    + left; reflexivity.
    + right. apply in_flat_map. exists i. split; [apply in_seq0; exact Hi|].
      apply in_guard. split; [exact H|left; reflexivity].
    + right. apply in_flat_map. exists k. split; [apply in_seq0; exact Hk|].
      apply in_guard. split; [exact H|right; left; reflexivity].
    + right. apply in_flat_map. exists k. split; [apply in_seq0; exact Hk|].
      apply in_guard. split; [exact H|]. right. right.
      apply in_flat_map. exists i. split; [apply in_seq0; exact Hi|].
      apply in_guard. split; [exact H'|left; reflexivity].
  - destruct p as [|[|p]]; [| |lia]; [right; left|right; right]; apply dConnCross_Kind; exact K.
Qed.

Lemma dRow0_C r m w s k e : dparticipant r m -> In e (dRow y (Some r) w s k) -> dcoupled (fst e).
Proof.
  intros Hp [<-|H].
  - exists r, m. split; [exact Hp|left; reflexivity].
  - apply in_flat_map in H as (i & Hi & H). apply in_seq in Hi. apply in_guard in H as [Hm [<-|[]]].
    exists r, m. split; [exact Hp|]. right; left. exists i. repeat split; (lia || assumption).
Qed.
Lemma dRow1_C r m w s k k' e : dparticipant r m -> (k < yna y)%nat -> In e (guard (m k) (dRow y (m k) w s k')) -> dcoupled (fst e).
Proof.
  intros Hp Hk H. apply in_guard in H as [Hm [<-|H]].
  - exists r, m. split; [exact Hp|]. right; right; left. exists k. repeat split; assumption.
  - apply in_flat_map in H as (i & Hi & H). apply in_seq in Hi. apply in_guard in H as [Hm' [<-|[]]].
    exists r, m. split; [exact Hp|]. right; right; right. exists k, i. repeat split; (lia || assumption).
Qed.

Lemma dissPartials_C e : In e (dissPartials y) -> dcoupled (fst e).
Proof.
  assert (P : dparticipant (rp y) (mr y)) by (left; split; reflexivity).
  assert (P0 : dparticipant (dpid y 0) (dmp y 0)) by (right; exists 0%nat; repeat split; lia).
  assert (P1 : dparticipant (dpid y 1) (dmp y 1)) by (right; exists 1%nat; repeat split; lia).
  unfold dissPartials. repeat rewrite in_app_iff. intros [H|[H|[H|H]]].
  - exact (dRow0_C _ _ _ _ _ _ P H).
  - exact (dRow0_C _ _ _ _ _ _ P0 H).
  - exact (dRow0_C _ _ _ _ _ _ P1 H).
  - apply in_flat_map in H as (k & Hk & H). apply in_seq in Hk.
    repeat rewrite in_app_iff in H. destruct H as [H|[H|H]].
    + eapply dRow1_C with (3 := H); [exact P|lia].
    + eapply dRow1_C with (3 := H); [exact P0|lia].
    + eapply dRow1_C with (3 := H); [exact P1|lia].
Qed.
End DCONTAIN.

Theorem diss_contained y o o' v :
  In (o, o', v) (dissPartials y) -> In (o, o') (dissConn y) /\ o <> None /\ o' <> None.
Proof.
  intros H. pose proof (dissPartials_C y _ H) as C. cbn [fst] in C.
  split; [apply dissConn_coupled; exact C|].
  destruct C as (r & m & _ & K). eapply Kind_total; exact K.
Qed.

Theorem diss_reduced isCl mid y r c : wfIds isCl mid -> wfDiss isCl mid y -> sameGrouping y ->
  jacc (dissReduced y) r c = if (r =? c)%nat then jacc (dissPartials y) r c else 0.
Proof.
  intros W D SG. rewrite (dissReduced_filter isCl mid y W D SG). apply jacc_diag.
  intros o o' v H. apply diss_contained in H. tauto.
Qed.

Theorem diss_reduced_contained y o o' v : sameGrouping y ->
  In (o, o', v) (dissReduced y) -> In (o, o') (dissConnRed y) /\ o <> None /\ o' <> None.
Proof.
  intros SG.
  assert (CX : forall d m k i, (k < yna y)%nat -> (i < yna y)%nat -> m k <> None -> m k = mr y i ->
     In (m k, mr y i) (dConnCrossRed y d m)).
  { intros d m k i Hk Hi Hm E. unfold dConnCrossRed. apply in_app_iff. right. apply in_flat_map.
    exists k. split; [apply in_seq0; exact Hk|]. apply in_guard. split; [exact Hm|].
    apply in_flat_map. exists i. split; [apply in_seq0; exact Hi|]. apply in_when.
    split; [apply ideqb_true; exact E|left; reflexivity]. }
  unfold dissReduced, dissConnRed. repeat rewrite in_app_iff. intros [H|[H|[H|H]]].
  - destruct H as [E|[]]. inversion E; subst. split; [left; left; reflexivity|split; congruence].
  - apply in_when in H as [E [F|[]]]. inversion F; subst.
    split; [|split; congruence]. right; left. unfold dConnCrossRed. apply in_app_iff. left.
    apply in_when. split; [exact E|left; reflexivity].
  - apply in_when in H as [E [F|[]]]. inversion F; subst.
    split; [|split; congruence]. right; right. unfold dConnCrossRed. apply in_app_iff. left.
    apply in_when. split; [exact E|left; reflexivity].
  - apply in_flat_map in H as (k & Hk & H). apply in_seq in Hk.
    repeat rewrite in_app_iff in H. destruct H as [H|[H|H]];
      apply in_guard in H as [Hm H]; apply in_flat_map in H as (i & Hi & H); apply in_seq in Hi;
      apply in_when in H as [E [F|[]]]; inversion F; subst.
    + apply Nat.eqb_eq in E; subst i. split; [|split; assumption]. left. right.
      apply in_flat_map. exists k. split; [apply in_seq0; lia|]. apply in_guard. split; [exact Hm|].
      apply in_flat_map. exists k. split; [apply in_seq0; lia|]. apply in_when.
      split; [apply Nat.eqb_refl|left; reflexivity].
    + apply ideqb_true in E. split; [right; left; apply CX; (assumption || lia)|split; congruence].
    + apply ideqb_true in E. destruct (SG k ltac:(lia)) as [S1 S2].
      assert (Hm1 : dmp y 1 k <> None) by (intros Q; apply Hm; apply S2; exact Q).
      split; [right; right; apply CX; (assumption || lia)|split; congruence].
Qed.
