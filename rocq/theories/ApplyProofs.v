From Coq Require Import Reals List Bool Arith Lia Lra Permutation.
From Verif Require Import Sums FluxModel ConstModel ApplyModel.
Import ListNotations.
Set Implicit Arguments.
Open Scope nat_scope.

(** ** Positions *)
Lemma scan_spec : forall mid pre suf c,
  match scan (pre ++ mid ++ suf) c (length pre) (length mid) with
  | Some p => In c mid /\ length pre <= p < length pre + length mid /\ nth_error (pre ++ mid ++ suf) p = Some c
  | None => ~ In c mid
  end.
Proof.
  induction mid as [|e mid IH]; intros pre suf c; simpl.
  - intros [].
  - rewrite nth_error_app2 by lia. rewrite Nat.sub_diag. simpl.
    destruct (Nat.eqb_spec e c) as [->|N].
    + split; [left; reflexivity|]. split; [lia|]. rewrite nth_error_app2 by lia. rewrite Nat.sub_diag. reflexivity.
    + specialize (IH (pre ++ [e]) suf c). rewrite app_length in IH. simpl in IH.
      replace ((pre ++ [e]) ++ mid ++ suf) with (pre ++ e :: mid ++ suf) in IH by (rewrite <- app_assoc; reflexivity).
      replace (length pre + 1) with (S (length pre)) in IH by lia.
      destruct (scan _ c (S (length pre)) (length mid)).
      * destruct IH as (A & B & C). repeat split; auto; lia.
      * intros [E|I]; [exact (N E)|exact (IH I)].
Qed.

Section CSR.
Variables (m : nat) (M : nat -> nat -> bool).
Let R := rowEntries m M.
Definition before (r : nat) : nat := length (flat_map R (seq 0 r)).

Lemma before_S : forall r, before (S r) = before r + length (R r).
Proof.
  intros r. unfold before. rewrite seq_S, flat_map_app, app_length. simpl. rewrite app_nil_r. reflexivity.
Qed.
Lemma before_mono : forall a b, a <= b -> before a <= before b.
Proof. intros a b H. induction H; [lia|]. rewrite before_S. lia. Qed.

Lemma rowsFrom_nth : forall is last r, r <= length is ->
  nth_error (rowsFrom m M last is) r = Some (last + length (flat_map R (firstn r is))).
Proof.
  induction is as [|i is IH]; intros last r H.
  - simpl in H. assert (r = 0) by lia. subst. simpl. f_equal. lia.
  - destruct r as [|r]; simpl; [f_equal; lia|]. rewrite IH by (simpl in H; lia). f_equal. rewrite app_length. unfold R. lia.
Qed.
Lemma firstn_seq : forall n r, r <= n -> firstn r (seq 0 n) = seq 0 r.
Proof.
  intros n r H. replace n with (r + (n - r)) by lia. rewrite seq_app, firstn_app, seq_length, Nat.sub_diag. simpl.
  rewrite app_nil_r. rewrite firstn_all2; [reflexivity|rewrite seq_length; lia].
Qed.
Lemma csrRows_nth : forall n r, r <= n -> nth_error (csrRows n m M) r = Some (before r).
Proof.
  intros n r H. unfold csrRows. rewrite rowsFrom_nth by (rewrite seq_length; lia). rewrite firstn_seq by lia. reflexivity.
Qed.
Lemma csrRows_length : forall n, length (csrRows n m M) = S n.
Proof.
  intros n. unfold csrRows. assert (G : forall is last, length (rowsFrom m M last is) = S (length is)).
  { induction is; intros; simpl; [reflexivity|]. rewrite IHis. reflexivity. }
  rewrite G, seq_length. reflexivity.
Qed.

Lemma position_spec : forall n r c, r < n ->
  match getPosition (csrRows n m M) (csrEntries n m M) r c with
  | Some p => In c (R r) /\ before r <= p < before (S r) /\ nth_error (csrEntries n m M) p = Some c
  | None => ~ In c (R r)
  end.
Proof.
  intros n r c H. unfold getPosition. rewrite (@csrRows_nth n r), (@csrRows_nth n (S r)) by lia.
  assert (E : csrEntries n m M = flat_map R (seq 0 r) ++ R r ++ flat_map R (seq (S r) (n - S r))).
  { unfold csrEntries. replace n with (r + S (n - S r)) at 1 by lia. rewrite seq_app, flat_map_app. simpl. reflexivity. }
  rewrite E. rewrite before_S. replace (before r + length (R r) - before r) with (length (R r)) by lia.
  apply (scan_spec (R r) (flat_map R (seq 0 r)) (flat_map R (seq (S r) (n - S r))) c).
Qed.
Lemma R_spec : forall r c, In c (R r) <-> M r c = true /\ c < m.
Proof. intros. unfold R, rowEntries. rewrite filter_In, in_seq. intuition lia. Qed.

Lemma position_some : forall n r c, r < n -> M r c = true -> c < m ->
  exists p, getPosition (csrRows n m M) (csrEntries n m M) r c = Some p /\ p < length (csrEntries n m M).
Proof.
  intros n r c H1 H2 H3. pose proof (@position_spec n r c H1) as P.
  destruct (getPosition _ _ r c) as [p|].
  - exists p. split; [reflexivity|]. destruct P as (_ & _ & P). apply nth_error_Some. rewrite P. discriminate.
  - exfalso. apply P. apply R_spec. auto.
Qed.
Lemma position_only : forall n r c p, r < n ->
  getPosition (csrRows n m M) (csrEntries n m M) r c = Some p -> M r c = true /\ c < m /\ p < length (csrEntries n m M).
Proof.
  intros n r c p H1 H2. pose proof (@position_spec n r c H1) as P. rewrite H2 in P. destruct P as (A & _ & P).
  apply R_spec in A. destruct A. repeat split; auto. apply nth_error_Some. rewrite P. discriminate.
Qed.
Lemma position_inj : forall n r c r' c' p, r < n -> r' < n ->
  getPosition (csrRows n m M) (csrEntries n m M) r c = Some p ->
  getPosition (csrRows n m M) (csrEntries n m M) r' c' = Some p -> r = r' /\ c = c'.
Proof.
  intros n r c r' c' p H H' E E'.
  pose proof (@position_spec n r c H) as P. rewrite E in P. pose proof (@position_spec n r' c' H') as P'. rewrite E' in P'.
  destruct P as (_ & B & N), P' as (_ & B' & N').
  split; [|rewrite N in N'; injection N'; auto].
  destruct (lt_eq_lt_dec r r') as [[L|L]|L]; auto; exfalso.
  - pose proof (@before_mono (S r) r' L). lia.
  - pose proof (@before_mono (S r') r L). lia.
Qed.
End CSR.

(** ** Lists without repetition *)
Lemma NoDup_flat_map : forall A B (f : A -> list B) l,
  NoDup l -> (forall x, In x l -> NoDup (f x)) ->
  (forall x y b, In x l -> In y l -> In b (f x) -> In b (f y) -> x = y) -> NoDup (flat_map f l).
Proof.
  induction l as [|a l IH]; intros ND H1 H2; simpl; [constructor|].
  inversion ND as [|? ? Ha ND']; subst.
  assert (G : forall l1 l2 : list B, NoDup l1 -> NoDup l2 -> (forall b, In b l1 -> ~ In b l2) -> NoDup (l1 ++ l2)).
  { induction l1; intros l2 K1 K2 K3; simpl; auto. inversion K1; subst. constructor.
    - rewrite in_app_iff. intros [I|I]; [auto|]. exact (K3 a0 (or_introl eq_refl) I).
    - apply IHl1; auto. intros b I. apply K3. right; auto. }
  apply G.
  - apply H1. left; auto.
  - apply IH; auto. intros x I; apply H1; right; auto. intros x y b I J; apply H2; right; auto.
  - intros b I J. apply in_flat_map in J. destruct J as (y & J & K).
    assert (a = y) by (eapply H2; [left; reflexivity|right; exact J|exact I|exact K]). subst. auto.
Qed.
Lemma NoDup_app2 : forall A (l1 l2 : list A), NoDup l1 -> NoDup l2 -> (forall b, In b l1 -> ~ In b l2) -> NoDup (l1 ++ l2).
Proof.
  induction l1; intros l2 K1 K2 K3; simpl; auto. inversion K1; subst. constructor.
  - rewrite in_app_iff. intros [I|I]; [auto|]. exact (K3 a (or_introl eq_refl) I).
  - apply IHl1; auto. intros b I. apply K3. right; auto.
Qed.

(** ** The constant reactions *)
Section GEN.
Variables (nc dof : nat) (rows entries : list nat).
Hypothesis Hnc : nc <= dof.
Let listed := listed rows entries.
Lemma visit_In : forall i j q, In q (visit dof rows entries i j) <->
  (i = j /\ listed i dof = true /\ q = (i, None)) \/ (listed i j = true /\ q = (i, Some j))
  \/ (i <> j /\ listed j i = true /\ q = (j, Some i)).
Proof.
  intros i j q. unfold visit. fold listed. rewrite !in_app_iff.
  destruct (Nat.eqb_spec i j) as [->|N].
  - rewrite Nat.eqb_refl. unfold when. destruct (listed j dof), (listed j j); simpl; intuition (subst; auto; congruence).
  - assert (E : (j =? i) = false) by (apply Nat.eqb_neq; auto). rewrite E. unfold when.
    destruct (listed i j), (listed j i); simpl; intuition (subst; auto; congruence).
Qed.
Lemma gen_In : forall q, In q (constantReactions nc dof true rows entries) <->
  fst q < nc /\ match snd q with None => listed (fst q) dof = true | Some j => j < nc /\ listed (fst q) j = true end.
Proof.
  intros [a o]. unfold constantReactions, when. rewrite in_flat_map. split.
  - intros (i & Hi & H). apply in_flat_map in H. destruct H as (j & Hj & H). apply in_seq in Hi, Hj.
    destruct (Nat.ltb_spec j i); [destruct H|]. apply visit_In in H.
    destruct H as [(-> & L & E)|[(L & E)|(N & L & E)]]; injection E as -> ->; simpl; intuition lia.
  - simpl. intros (Ha & H). destruct o as [j|].
    + destruct H as (Hj & L). destruct (le_lt_dec a j).
      * exists a. split; [apply in_seq; lia|]. apply in_flat_map. exists j. split; [apply in_seq; lia|].
        destruct (Nat.ltb_spec j a); [lia|]. apply visit_In. auto.
      * exists j. split; [apply in_seq; lia|]. apply in_flat_map. exists a. split; [apply in_seq; lia|].
        destruct (Nat.ltb_spec a j); [lia|]. apply visit_In. right; right. repeat split; auto. lia.
    + exists a. split; [apply in_seq; lia|]. apply in_flat_map. exists a. split; [apply in_seq; lia|].
      destruct (Nat.ltb_spec a a); [lia|]. apply visit_In. auto.
Qed.
Lemma gen_NoDup : NoDup (constantReactions nc dof true rows entries).
Proof.
  unfold constantReactions, when. apply NoDup_flat_map; [apply seq_NoDup| |].
  - intros i Hi. apply NoDup_flat_map; [apply seq_NoDup| |].
    + intros j Hj. destruct (Nat.ltb_spec j i); [constructor|]. unfold visit. fold listed.
      destruct (Nat.eqb_spec i j) as [->|N].
      * rewrite Nat.eqb_refl. unfold when. destruct (listed j dof), (listed j j); simpl; repeat constructor; simpl; intuition congruence.
      * assert (E : (j =? i) = false) by (apply Nat.eqb_neq; auto). rewrite E. unfold when.
        destruct (listed i j), (listed j i); simpl; repeat constructor; simpl; intuition congruence.
    + intros j j' b Hj Hj' H H'. destruct (Nat.ltb_spec j i); [destruct H|]. destruct (Nat.ltb_spec j' i); [destruct H'|].
      apply visit_In in H, H'.
      destruct H as [(Hx & _ & E)|[(_ & E)|(Hx & _ & E)]], H' as [(Hx' & _ & E')|[(_ & E')|(Hx' & _ & E')]]; rewrite E in E'; inversion E'; lia.
  - intros i i' b Hi Hi' H H'. apply in_flat_map in H, H'. destruct H as (j & _ & H), H' as (j' & _ & H').
    destruct (Nat.ltb_spec j i); [destruct H|]. destruct (Nat.ltb_spec j' i'); [destruct H'|].
    apply visit_In in H, H'.
    destruct H as [(Hx & _ & E)|[(_ & E)|(Hx & _ & E)]], H' as [(Hx' & _ & E')|[(_ & E')|(Hx' & _ & E')]]; rewrite E in E'; inversion E'; lia.
Qed.
End GEN.

(** ** Slots *)
Section SLOTS.
Variables (na : nat) (mom : nat -> nat -> option nat) (nc dof : nat).
(** [unknown c u]: [u] is the cluster's own unknown or that of one of its moments. *)
Definition unknown (c u : nat) : Prop := u = c \/ exists i, i < na /\ mom c i = Some u.
Hypothesis Hdof : forall c u, c < nc -> unknown c u -> u < dof.
Hypothesis Howner : forall c c' u, c < nc -> c' < nc -> unknown c u -> unknown c' u -> c = c'.
Hypothesis Hmom : forall c i m, c < nc -> i < na -> mom c i = Some m -> nc <= m.
Hypothesis Hinj : forall c i j m, c < nc -> i < na -> j < na -> mom c i = Some m -> mom c j = Some m -> i = j.

Lemma axes_In : forall i, In i (axes na) <-> i < na.
Proof. intros. unfold axes. rewrite in_seq. lia. Qed.
Lemma guard_In : forall (o : option nat) (f : nat -> list (nat * nat)) e,
  In e (match o with Some m => f m | None => [] end) <-> exists m, o = Some m /\ In e (f m).
Proof.
  intros [m|] f e; split.
  - intros H; exists m; auto.
  - intros (m' & E & H). injection E as <-. auto.
  - intros [].
  - intros (m' & E & _). discriminate.
Qed.

Lemma slots_In : forall r0 o u v, In (u, v) (slots na mom dof (r0, o)) <->
  unknown r0 u /\ match o with None => v = dof | Some r1 => unknown r1 v end.
Proof.
  intros r0 o u v. unfold slots. simpl. destruct o as [r1|]; simpl.
  - rewrite in_flat_map. split.
    + intros [E|(i & Hi & H)].
      * injection E as <- <-. split; left; reflexivity.
      * apply axes_In in Hi. apply in_app_iff in H. destruct H as [H|H]; apply guard_In in H; destruct H as (m & E & H).
        -- simpl in H. destruct H as [H|[]]. injection H as <- <-. split; [left; auto|right; eauto].
        -- simpl in H. destruct H as [H|H].
           ++ injection H as <- <-. split; [right; eauto|left; auto].
           ++ apply in_flat_map in H. destruct H as (j & Hj & H). apply axes_In in Hj. apply guard_In in H. destruct H as (m' & E' & H).
              simpl in H. destruct H as [H|[]]. injection H as <- <-. split; right; eauto.
    + intros ([->|(i & Hi & E)] & [->|(j & Hj & E')]).
      * left; reflexivity.
      * right. exists j. split; [apply axes_In; auto|]. rewrite E'. apply in_app_iff. left. left. reflexivity.
      * right. exists i. split; [apply axes_In; auto|]. rewrite E. apply in_app_iff. right. left. reflexivity.
      * right. exists i. split; [apply axes_In; auto|]. rewrite E. apply in_app_iff. right. right.
        apply in_flat_map. exists j. split; [apply axes_In; auto|]. rewrite E'. left. reflexivity.
  - rewrite in_flat_map. split.
    + intros [E|(i & Hi & H)].
      * injection E as <- <-. split; [left|]; reflexivity.
      * apply axes_In in Hi. apply guard_In in H. destruct H as (m & E & H). simpl in H. destruct H as [H|[]].
        injection H as <- <-. split; [right; eauto|reflexivity].
    + intros ([->|(i & Hi & E)] & ->).
      * left; reflexivity.
      * right. exists i. split; [apply axes_In; auto|]. rewrite E. left. reflexivity.
Qed.

Lemma slots_NoDup : forall r0 o, r0 < nc -> (forall r1, o = Some r1 -> r1 < nc) -> NoDup (slots na mom dof (r0, o)).
Proof.
  intros r0 o H0 H1. unfold slots. simpl. destruct o as [r1|].
  - specialize (H1 r1 eq_refl). constructor.
    + intros H. apply in_flat_map in H. destruct H as (i & Hi & H). apply axes_In in Hi.
      apply in_app_iff in H. destruct H as [H|H]; apply guard_In in H; destruct H as (m & E & H).
      * simpl in H. destruct H as [H|[]]. injection H as ->. pose proof (Hmom H1 Hi E). lia.
      * pose proof (Hmom H0 Hi E) as L. destruct H as [H|H]; [injection H as ->; lia|].
        apply in_flat_map in H. destruct H as (j & Hj & H). apply guard_In in H. destruct H as (m' & E' & H).
        simpl in H. destruct H as [H|[]]. injection H as -> _. lia.
    + apply NoDup_flat_map; [apply seq_NoDup| |].
      * intros i Hi. apply axes_In in Hi. apply NoDup_app2.
        -- destruct (mom r1 i); repeat constructor; intros [].
        -- destruct (mom r0 i) as [m|] eqn:E; [|constructor]. constructor.
           ++ intros H. apply in_flat_map in H. destruct H as (j & Hj & H). apply axes_In in Hj. apply guard_In in H. destruct H as (m' & E' & H).
              simpl in H. destruct H as [H|[]]. injection H as ->. pose proof (Hmom H1 Hj E'). lia.
           ++ apply NoDup_flat_map; [apply seq_NoDup| |].
              ** intros j _. destruct (mom r1 j); repeat constructor; intros [].
              ** intros j j' b Hj Hj' K K'. apply axes_In in Hj, Hj'. apply guard_In in K, K'.
                 destruct K as (p & Ep & K), K' as (p' & Ep' & K'). simpl in K, K'. destruct K as [K|[]], K' as [K'|[]].
                 subst b. injection K' as ->. exact (Hinj H1 Hj Hj' Ep Ep').
        -- intros b K K'. apply guard_In in K, K'. destruct K as (p & Ep & K), K' as (p' & Ep' & K').
           pose proof (Hmom H0 Hi Ep') as L. simpl in K. destruct K as [<-|[]]. simpl in K'. destruct K' as [K'|K'].
           ++ injection K' as -> _. lia.
           ++ apply in_flat_map in K'. destruct K' as (j & Hj & K'). apply guard_In in K'. destruct K' as (q & Eq & K').
              simpl in K'. destruct K' as [K'|[]]. injection K' as -> _. lia.
      * assert (G : forall i b, i < na ->
           In b (match mom r1 i with Some m => [(r0, m)] | None => [] end
             ++ match mom r0 i with Some m => (m, r1) :: flat_map (fun j => match mom r1 j with Some m' => [(m, m')] | None => [] end) (axes na) | None => [] end) ->
           (fst b = r0 /\ mom r1 i = Some (snd b)) \/ mom r0 i = Some (fst b)).
        { intros i b Hi K. apply in_app_iff in K. destruct K as [K|K]; apply guard_In in K; destruct K as (p & Ep & K).
          - simpl in K. destruct K as [<-|[]]. left. auto.
          - right. simpl in K. destruct K as [<-|K]; auto. apply in_flat_map in K. destruct K as (j & Hj & K). apply guard_In in K.
            destruct K as (q & Eq & K). simpl in K. destruct K as [<-|[]]. auto. }
        intros i j b Hi Hj K K'. apply axes_In in Hi, Hj. apply G in K; auto. apply G in K'; auto.
        destruct K as [(K1 & K2)|K], K' as [(K1' & K2')|K'].
        -- exact (Hinj H1 Hi Hj K2 K2').
        -- pose proof (Hmom H0 Hj K'). lia.
        -- pose proof (Hmom H0 Hi K). lia.
        -- exact (Hinj H0 Hi Hj K K').
  - constructor.
    + intros H. apply in_flat_map in H. destruct H as (i & Hi & H). apply axes_In in Hi. apply guard_In in H. destruct H as (m & E & H).
      simpl in H. destruct H as [H|[]]. injection H as ->. pose proof (Hmom H0 Hi E). lia.
    + apply NoDup_flat_map; [apply seq_NoDup| |].
      * intros i _. destruct (mom r0 i); repeat constructor; intros [].
      * intros i j b Hi Hj K K'. apply axes_In in Hi, Hj. apply guard_In in K, K'.
        destruct K as (p & Ep & K), K' as (p' & Ep' & K'). simpl in K, K'. destruct K as [K|[]], K' as [K'|[]].
        subst b. injection K' as ->. exact (Hinj H0 Hi Hj Ep Ep').
Qed.

(** ** All slots of the generated reactions *)
Variable M : nat -> nat -> bool.
Let rows := csrRows dof (S dof) M.
Let entries := csrEntries dof (S dof) M.
Let reactions := constantReactions nc dof true rows entries.
Hypothesis Hncdof : nc <= dof.
Hypothesis Hrect : forall i j u v, i < nc -> j < nc -> unknown i u -> unknown j v -> M u v = M i j.
Hypothesis HrectC : forall i u, i < nc -> unknown i u -> M u dof = M i dof.
Hypothesis Hcover : forall u, u < dof -> exists c, c < nc /\ unknown c u.

Lemma listed_M : forall r c, r < dof -> listed rows entries r c = true <-> M r c = true /\ c <= dof.
Proof.
  intros r c H. unfold listed. replace (length rows) with (S dof) by (unfold rows; rewrite csrRows_length; reflexivity). simpl negb. rewrite andb_true_l.
  destruct (getPosition rows entries r c) as [p|] eqn:E.
  - split; auto. intros _. apply position_only in E; auto. intuition lia.
  - split; [discriminate|]. intros (A & B). destruct (@position_some (S dof) M dof r c H A) as (p & P & _); [lia|].
    unfold rows, entries in E. congruence.
Qed.

Lemma allslots_In : forall u v, In (u, v) (flat_map (slots na mom dof) reactions) <-> u < dof /\ v <= dof /\ M u v = true.
Proof.
  intros u v. rewrite in_flat_map. unfold reactions. split.
  - intros ((r0, o) & Hq & H). apply gen_In in Hq; auto. simpl in Hq. destruct Hq as (H0 & Hq). apply slots_In in H. destruct H as (U & V).
    destruct o as [r1|].
    + destruct Hq as (H1 & L). apply listed_M in L; [|lia]. destruct L as (L & _).
      repeat split; [exact (Hdof H0 U)|pose proof (Hdof H1 V); lia|]. rewrite (Hrect H0 H1 U V). auto.
    + subst v. apply listed_M in Hq; [|lia]. destruct Hq as (L & _).
      repeat split; [exact (Hdof H0 U)|lia|]. rewrite (HrectC H0 U). auto.
  - intros (A & B & E). destruct (Hcover A) as (i & Hi & U). destruct (le_lt_eq_dec v dof B) as [V|V].
    + destruct (Hcover V) as (j & Hj & W). exists (i, Some j). split.
      * apply gen_In; auto. simpl. repeat split; auto. apply listed_M; [lia|]. rewrite <- (Hrect Hi Hj U W). split; [auto|lia].
      * apply slots_In. auto.
    + subst v. exists (i, None). split.
      * apply gen_In; auto. simpl. split; auto. apply listed_M; [lia|]. rewrite <- (HrectC Hi U). auto.
      * apply slots_In. auto.
Qed.
Lemma reactions_valid : forall r0 o, In (r0, o) reactions -> r0 < nc /\ forall r1, o = Some r1 -> r1 < nc.
Proof.
  intros r0 o H. apply gen_In in H; auto. simpl in H. destruct H as (H0 & H). split; auto. intros r1 ->. tauto.
Qed.
Lemma allslots_NoDup : NoDup (flat_map (slots na mom dof) reactions).
Proof.
  apply NoDup_flat_map.
  - apply gen_NoDup; auto.
  - intros (r0, o) H. apply reactions_valid in H. destruct H. apply slots_NoDup; auto.
  - intros (r0, o) (r0', o') (u, v) H H' K K'. apply reactions_valid in H, H'. destruct H as (H0 & H1), H' as (H0' & H1').
    apply slots_In in K, K'. destruct K as (U & V), K' as (U' & V'). rewrite (Howner H0 H0' U U').
    f_equal. destruct o as [r1|], o' as [r1'|]; auto.
    + f_equal. eapply Howner; eauto.
    + subst v. pose proof (Hdof (H1 r1 eq_refl) V). lia.
    + subst v. pose proof (Hdof (H1' r1' eq_refl) V'). lia.
Qed.
Open Scope R_scope.
Lemma Rsum_perm : forall A (l l' : list A) f, Permutation l l' -> Rsum l f = Rsum l' f.
Proof. intros A l l' f P. induction P; simpl; lra. Qed.
Lemma allslots_sum : forall f : nat -> nat -> R,
  Rsum (flat_map (slots na mom dof) reactions) (fun s => f (fst s) (snd s))
  = Rsum (seq 0 dof) (fun u => Rsum (seq 0 (S dof)) (fun v => if M u v then f u v else 0)).
Proof.
  intros f.
  rewrite (@Rsum_perm _ _ (flat_map (fun u => flat_map (fun v => if M u v then [(u, v)] else []) (seq 0 (S dof))) (seq 0 dof))).
  - rewrite Rsum_flat_map. apply Rsum_ext. intros u _. rewrite Rsum_flat_map. apply Rsum_ext. intros v _. destruct (M u v); simpl; unfold Rsum; simpl; lra.
  - apply NoDup_Permutation.
    + apply allslots_NoDup.
    + apply NoDup_flat_map; [apply seq_NoDup| |].
      * intros u _. apply NoDup_flat_map; [apply seq_NoDup| |].
        -- intros v _. destruct (M u v); repeat constructor; intros [].
        -- intros v w b _ _ K K'. destruct (M u v); [|destruct K]. destruct (M u w); [|destruct K'].
           destruct K as [<-|[]], K' as [K'|[]]. injection K' as ->. reflexivity.
      * intros u w b _ _ K K'. apply in_flat_map in K, K'. destruct K as (v & _ & K), K' as (v' & _ & K').
        destruct (M u v); [|destruct K]. destruct (M w v'); [|destruct K'].
        destruct K as [<-|[]], K' as [K'|[]]. injection K' as -> _. reflexivity.
    + intros (u, v). rewrite allslots_In. rewrite in_flat_map. split.
      * intros (A & B & E). exists u. split; [apply in_seq; lia|]. apply in_flat_map. exists v. split; [apply in_seq; lia|]. rewrite E. left; auto.
      * intros (u' & Hu & K). apply in_flat_map in K. destruct K as (v' & Hv & K). destruct (M u' v') eqn:E; [|destruct K].
        destruct K as [K|[]]. injection K as -> ->. apply in_seq in Hu, Hv. repeat split; auto; lia.
Qed.

(** ** What the reactions were given *)
Variable rates : nat -> R.
Definition given (u v : nat) : R := match getPosition rows entries u v with Some p => rates p | None => 0 end.
Lemma collect_ok : forall A B (f : A -> option B) (g : A -> B) l, (forall x, In x l -> f x = Some (g x)) -> collect f l = Some (map g l).
Proof.
  induction l; intros H; simpl; auto. rewrite H by (left; auto). rewrite IHl; auto. intros x I. apply H. right; auto.
Qed.
Definition triples (q : nat * option nat) := map (fun s => (fst s, snd s, given (fst s) (snd s))) (slots na mom dof q).
Lemma setRate_ok : forall q, In q reactions -> setRate na mom dof rows entries rates q = Some (triples q).
Proof.
  intros q H. unfold setRate, triples. apply collect_ok. intros (u, v) I.
  assert (J : In (u, v) (flat_map (slots na mom dof) reactions)) by (apply in_flat_map; eauto).
  apply allslots_In in J. destruct J as (A & B & E). unfold readRate, given. simpl.
  destruct (@position_some (S dof) M dof u v A E) as (p & P & L); [lia|]. fold rows entries in P, L. rewrite P.
  apply Nat.ltb_lt in L. rewrite L. reflexivity.
Qed.

Lemma flat_map_ext_in : forall A B (f g : A -> list B) l, (forall x, In x l -> f x = g x) -> flat_map f l = flat_map g l.
Proof. induction l; intros H; simpl; auto. rewrite H by (left; auto). rewrite IHl; auto. intros x I; apply H; right; auto. Qed.
Lemma slot_const : forall q u v, In q reactions -> In (u, v) (slots na mom dof q) -> (snd q = None <-> v = dof).
Proof.
  intros (r0, o) u v H I. apply reactions_valid in H. destruct H as (H0 & H1). apply slots_In in I. destruct I as (_ & V).
  simpl. destruct o as [r1|]; [|tauto]. pose proof (Hdof (H1 r1 eq_refl) V). split; intros; [discriminate|lia].
Qed.
Lemma flux_sum : forall conc d, (d < dof)%nat ->
  networkFlux na mom dof rows entries rates reactions conc d
  = given d dof + Rsum (seq 0 dof) (fun c => given d c * conc c).
Proof.
  intros conc d Hd. unfold networkFlux, acc. rewrite Rsum_flat_map.
  transitivity (Rsum (flat_map (slots na mom dof) reactions)
     (fun s => (fun u v => if (u =? d)%nat then if (v =? dof)%nat then given u v else conc v * given u v else 0) (fst s) (snd s))).
  - rewrite Rsum_flat_map. apply Rsum_ext. intros q Hq. unfold ratesOf. rewrite setRate_ok by auto.
    unfold constFlux, triples. rewrite !Rsum_map. apply Rsum_ext. intros (u, v) I. simpl.
    pose proof (@slot_const q u v Hq I) as S. destruct (snd q); destruct (Nat.eqb_spec v dof) as [E|E]; auto.
    + apply S in E. discriminate.
    + exfalso. apply E, S. reflexivity.
  - rewrite (allslots_sum (fun u v => if (u =? d)%nat then if (v =? dof)%nat then given u v else conc v * given u v else 0)).
    rewrite (@Rsum_single _ _ _ d).
    + rewrite Rsum_seq_S, Nat.eqb_refl, Nat.eqb_refl.
      assert (G : forall v, M d v = false -> given d v = 0).
      { intros v E. unfold given. destruct (getPosition rows entries d v) eqn:P; auto. apply position_only in P; auto. destruct P; congruence. }
      replace (if M d dof then given d dof else 0) with (given d dof) by (destruct (M d dof) eqn:E; auto).
      rewrite Rplus_comm. f_equal. apply Rsum_ext. intros c Hc. apply in_seq in Hc.
      destruct (Nat.eqb_spec c dof); [lia|]. destruct (M d c) eqn:E; [lra|]. rewrite (G c E). lra.
    + apply seq_NoDup.
    + apply in_seq; lia.
    + intros u _ N. apply Rsum_zero. intros v _. destruct (M u v); auto. destruct (Nat.eqb_spec u d); [congruence|reflexivity].
Qed.
Lemma jac_sum : forall d c, (d < dof)%nat -> (c < dof)%nat ->
  networkJacobian na mom dof rows entries rates reactions d c = given d c.
Proof.
  intros d c Hd Hc. unfold networkJacobian. rewrite Rsum_flat_map.
  transitivity (Rsum (flat_map (slots na mom dof) reactions)
     (fun s => (fun u v => if ((u =? d) && (v =? c))%nat then given u v else 0) (fst s) (snd s))).
  - rewrite Rsum_flat_map. apply Rsum_ext. intros q Hq. unfold ratesOf. rewrite setRate_ok by auto.
    unfold constPartials. destruct (snd q) eqn:Q.
    + unfold triples. rewrite Rsum_map. apply Rsum_ext. intros (u, v) I. reflexivity.
    + simpl. symmetry. apply Rsum_zero. intros (u, v) I. simpl. apply (@slot_const q u v Hq I) in Q. subst v.
      destruct (Nat.eqb_spec dof c); [lia|]. rewrite andb_false_r. reflexivity.
  - rewrite (allslots_sum (fun u v => if ((u =? d) && (v =? c))%nat then given u v else 0)).
    rewrite (@Rsum_single _ _ _ d).
    + rewrite (@Rsum_single _ _ _ c).
      * rewrite !Nat.eqb_refl. simpl. destruct (M d c) eqn:E; auto.
        unfold given. destruct (getPosition rows entries d c) eqn:P; auto. apply position_only in P; auto. destruct P; congruence.
      * apply seq_NoDup.
      * apply in_seq; lia.
      * intros v _ N. destruct (M d v); auto. destruct (Nat.eqb_spec v c); [congruence|]. rewrite andb_false_r. reflexivity.
    + apply seq_NoDup.
    + apply in_seq; lia.
    + intros u _ N. apply Rsum_zero. intros v _. destruct (M u v); auto. destruct (Nat.eqb_spec u d); [congruence|reflexivity].
Qed.
End SLOTS.

(** ** The table the rates come from *)
Open Scope nat_scope.
Lemma fguard_In : forall A (o : option nat) (l : list A) e, In e (guard o l) <-> o <> None /\ In e l.
Proof. intros A [m|] l e; simpl; intuition congruence. Qed.
Lemma when_In : forall A (b : bool) (l : list A) e, In e (when b l) <-> b = true /\ In e l.
Proof. intros A [] l e; simpl; intuition congruence. Qed.

Section TABLE.
Variables (na : nat) (mom : nat -> nat -> option nat).
Notation unk := (unknown na mom).
Variable inS : nat -> bool.

Section P.
Variable x : prx.
Hypothesis Hna : xna x = na.
Hypothesis Hmp : forall p d, pid x p = Some d -> mp x p = mom d.

Lemma ps_In : forall f e, In e (ps inS x f) <-> exists p d, (p = 0 \/ p = 1) /\ pid x p = Some d /\ inS d = true /\ In e (f p).
Proof.
  intros f e. unfold ps, two. rewrite in_flat_map. split.
  - intros (p & Hp & H). apply fguard_In in H. destruct H as (N & H). apply when_In in H. destruct H as (B & H).
    unfold pin in B. destruct (pid x p) as [d|] eqn:E; [|congruence]. exists p, d. simpl in Hp. repeat split; auto. intuition.
  - intros (p & d & Hp & E & B & H). exists p. split; [simpl; intuition|]. apply fguard_In. split; [congruence|].
    apply when_In. unfold pin. rewrite E. auto.
Qed.
Lemma connsOut_In : forall U V, In (U, V) (prodConnsOut inS x) <->
  exists p d u, (p = 0 \/ p = 1) /\ pid x p = Some d /\ inS d = true /\ U = Some u /\ V = None /\ unk d u.
Proof.
  intros U V. unfold prodConnsOut. rewrite in_app_iff, ps_In, in_flat_map. split.
  - intros [(p & d & Hp & E & B & H)|(k & Hk & H)].
    + simpl in H. destruct H as [H|[]]. injection H as <- <-. exists p, d, d. rewrite E. repeat split; auto. left; auto.
    + apply ps_In in H. destruct H as (p & d & Hp & E & B & H). apply fguard_In in H. destruct H as (N & H).
      simpl in H. destruct H as [H|[]]. injection H as <- <-. destruct (mp x p k) as [u|] eqn:F; [|congruence].
      exists p, d, u. repeat split; auto. right. exists k. unfold xaxes in Hk. apply in_seq in Hk. rewrite <- (Hmp p E). split; [lia|auto].
  - intros (p & d & u & Hp & E & B & -> & -> & [->|(k & Hk & F)]).
    + left. exists p, d. repeat split; auto. left. rewrite E. reflexivity.
    + right. exists k. split; [unfold xaxes; apply in_seq; lia|]. apply ps_In. exists p, d. repeat split; auto.
      apply fguard_In. rewrite (Hmp p E), F. split; [discriminate|]. left. reflexivity.
Qed.
Lemma connsIn_In : forall c U V, In (U, V) (prodConnsIn inS x c (mom c)) <->
  exists i u v, U = Some u /\ V = Some v /\ unk i u /\ unk c v
    /\ (i = c \/ exists p, (p = 0 \/ p = 1) /\ pid x p = Some i /\ inS i = true).
Proof.
  intros c U V. unfold prodConnsIn. rewrite !in_app_iff, ps_In, !in_flat_map. 
  assert (AX : forall k, In k (xaxes x) <-> k < na) by (intros; unfold xaxes; rewrite in_seq; lia).
  split.
  - intros [[H|[]]|[(p & d & Hp & E & B & H)|[(i & Hi & H)|(k & Hk & H)]]].
    + injection H as <- <-. exists c, c, c. repeat split; auto; left; auto.
    + simpl in H. destruct H as [H|[]]. injection H as <- <-. exists d, d, c. repeat split; auto; try (left; reflexivity). right. exists p. auto.
    + apply AX in Hi. apply fguard_In in H. destruct H as (N & H). destruct (mom c i) as [v|] eqn:F; [|congruence].
      assert (UV : unk c v) by (right; eauto).
      apply in_app_iff in H. destruct H as [[H|[]]|H].
      * injection H as <- <-. exists c, c, v. repeat split; auto. left; auto.
      * apply ps_In in H. destruct H as (p & d & Hp & E & B & H). simpl in H. destruct H as [H|[]]. injection H as <- <-.
        exists d, d, v. repeat split; auto; try (left; reflexivity). right. exists p. auto.
    + apply AX in Hk. apply in_app_iff in H. destruct H as [H|H].
      * apply fguard_In in H. destruct H as (N & H). destruct (mom c k) as [u|] eqn:F; [|congruence].
        assert (UU : unk c u) by (right; eauto). apply in_app_iff in H. destruct H as [[H|[]]|H].
        -- injection H as <- <-. exists c, u, c. repeat split; auto. left; auto.
        -- apply in_flat_map in H. destruct H as (i & Hi & H). apply AX in Hi. apply fguard_In in H. destruct H as (N' & H).
           destruct (mom c i) as [v|] eqn:F'; [|congruence]. simpl in H. destruct H as [H|[]]. injection H as <- <-.
           exists c, u, v. repeat split; auto. right; eauto.
      * apply ps_In in H. destruct H as (p & d & Hp & E & B & H). rewrite (Hmp p E) in H. apply fguard_In in H. destruct H as (N & H).
        destruct (mom d k) as [u|] eqn:F; [|congruence]. assert (UU : unk d u) by (right; eauto).
        apply in_app_iff in H. destruct H as [[H|[]]|H].
        -- injection H as <- <-. exists d, u, c. repeat split; auto; [left; auto|right; exists p; auto].
        -- apply in_flat_map in H. destruct H as (i & Hi & H). apply AX in Hi. apply fguard_In in H. destruct H as (N' & H).
           destruct (mom c i) as [v|] eqn:F'; [|congruence]. simpl in H. destruct H as [H|[]]. injection H as <- <-.
           exists d, u, v. repeat split; auto; [right; eauto|right; exists p; auto].
  - intros (i & u & v & -> & -> & Hu & Hv & [->|(p & Hp & E & B)]).
    + destruct Hu as [->|(k & Hk & F)], Hv as [->|(j & Hj & F')].
      * left. left. reflexivity.
      * right. right. left. exists j. split; [apply AX; auto|]. rewrite F'. apply fguard_In. split; [discriminate|]. left. reflexivity.
      * right. right. right. exists k. split; [apply AX; auto|]. apply in_app_iff. left. rewrite F. apply fguard_In. split; [discriminate|]. left. reflexivity.
      * right. right. right. exists k. split; [apply AX; auto|]. apply in_app_iff. left. rewrite F. apply fguard_In. split; [discriminate|]. right.
        apply in_flat_map. exists j. split; [apply AX; auto|]. rewrite F'. apply fguard_In. split; [discriminate|]. left. reflexivity.
    + destruct Hu as [->|(k & Hk & F)], Hv as [->|(j & Hj & F')].
      * right. left. exists p, i. repeat split; auto. left. rewrite E. reflexivity.
      * right. right. left. exists j. split; [apply AX; auto|]. rewrite F'. apply fguard_In. split; [discriminate|]. right.
        apply ps_In. exists p, i. repeat split; auto. left. rewrite E. reflexivity.
      * right. right. right. exists k. split; [apply AX; auto|]. apply in_app_iff. right. apply ps_In. exists p, i. repeat split; auto.
        rewrite (Hmp p E), F. apply fguard_In. split; [discriminate|]. left. reflexivity.
      * right. right. right. exists k. split; [apply AX; auto|]. apply in_app_iff. right. apply ps_In. exists p, i. repeat split; auto.
        rewrite (Hmp p E), F. apply fguard_In. split; [discriminate|]. right.
        apply in_flat_map. exists j. split; [apply AX; auto|]. rewrite F'. apply fguard_In. split; [discriminate|]. left. reflexivity.
Qed.
End P.

Section D.
Variable y : drx.
Hypothesis Hna : yna y = na.
Hypothesis Hmp : forall p, p = 0 \/ p = 1 -> dmp y p = mom (dpid y p).
Hypothesis Hmr : mr y = mom (rp y).
Lemma dps_In : forall f e, In e (dps inS y f) <-> exists p, (p = 0 \/ p = 1) /\ inS (dpid y p) = true /\ In e (f p).
Proof.
  intros f e. unfold dps. rewrite in_app_iff, !when_In. split.
  - intros [(B & H)|(B & H)]; [exists 0|exists 1]; auto.
  - intros (p & [->| ->] & B & H); [left|right]; auto.
Qed.
Lemma dissOut_In : forall U V, In (U, V) (dissConnsOut inS y) <->
  exists p u, (p = 0 \/ p = 1) /\ inS (dpid y p) = true /\ U = Some u /\ V = None /\ unk (dpid y p) u.
Proof.
  intros U V. unfold dissConnsOut. rewrite in_app_iff, dps_In, in_flat_map. split.
  - intros [(p & Hp & B & H)|(k & Hk & H)].
    + simpl in H. destruct H as [H|[]]. injection H as <- <-. exists p, (dpid y p). repeat split; auto. left; auto.
    + apply dps_In in H. destruct H as (p & Hp & B & H). apply fguard_In in H. destruct H as (N & H).
      simpl in H. destruct H as [H|[]]. injection H as <- <-. destruct (dmp y p k) as [u|] eqn:F; [|congruence].
      exists p, u. repeat split; auto. right. exists k. unfold yaxes in Hk. apply in_seq in Hk. rewrite <- (Hmp Hp). split; [lia|auto].
  - intros (p & u & Hp & B & -> & -> & [->|(k & Hk & F)]).
    + left. exists p. repeat split; auto. left. reflexivity.
    + right. exists k. split; [unfold yaxes; apply in_seq; lia|]. apply dps_In. exists p. repeat split; auto.
      apply fguard_In. rewrite (Hmp Hp), F. split; [discriminate|]. left. reflexivity.
Qed.
Lemma dissIn_In : forall U V, In (U, V) (dissConnsIn inS y) <->
  exists i u v, U = Some u /\ V = Some v /\ unk i u /\ unk (rp y) v
    /\ (i = rp y \/ exists p, (p = 0 \/ p = 1) /\ dpid y p = i /\ inS i = true).
Proof.
  intros U V. unfold dissConnsIn. rewrite Hmr. set (c := rp y). rewrite !in_app_iff, dps_In, !in_flat_map. 
  assert (AX : forall k, In k (yaxes y) <-> k < na) by (intros; unfold yaxes; rewrite in_seq; lia).
  split.
  - intros [[H|[]]|[(p & Hp & B & H)|[(i & Hi & H)|(k & Hk & H)]]].
    + injection H as <- <-. exists c, c, c. repeat split; auto; left; auto.
    + simpl in H. destruct H as [H|[]]. injection H as <- <-. exists (dpid y p), (dpid y p), c. repeat split; auto; try (left; reflexivity). right. exists p. auto.
    + apply AX in Hi. apply fguard_In in H. destruct H as (N & H). destruct (mom c i) as [v|] eqn:F; [|congruence].
      assert (UV : unk c v) by (right; eauto).
      apply in_app_iff in H. destruct H as [[H|[]]|H].
      * injection H as <- <-. exists c, c, v. repeat split; auto. left; auto.
      * apply dps_In in H. destruct H as (p & Hp & B & H). simpl in H. destruct H as [H|[]]. injection H as <- <-.
        exists (dpid y p), (dpid y p), v. repeat split; auto; try (left; reflexivity). right. exists p. auto.
    + apply AX in Hk. apply in_app_iff in H. destruct H as [H|H].
      * apply fguard_In in H. destruct H as (N & H). destruct (mom c k) as [u|] eqn:F; [|congruence].
        assert (UU : unk c u) by (right; eauto). apply in_app_iff in H. destruct H as [[H|[]]|H].
        -- injection H as <- <-. exists c, u, c. repeat split; auto. left; auto.
        -- apply in_flat_map in H. destruct H as (i & Hi & H). apply AX in Hi. apply fguard_In in H. destruct H as (N' & H).
           destruct (mom c i) as [v|] eqn:F'; [|congruence]. simpl in H. destruct H as [H|[]]. injection H as <- <-.
           exists c, u, v. repeat split; auto. right; eauto.
      * apply dps_In in H. destruct H as (p & Hp & B & H). rewrite (Hmp Hp) in H. apply fguard_In in H. destruct H as (N & H).
        destruct (mom (dpid y p) k) as [u|] eqn:F; [|congruence]. assert (UU : unk (dpid y p) u) by (right; eauto).
        apply in_app_iff in H. destruct H as [[H|[]]|H].
        -- injection H as <- <-. exists (dpid y p), u, c. repeat split; auto; [left; auto|right; exists p; auto].
        -- apply in_flat_map in H. destruct H as (i & Hi & H). apply AX in Hi. apply fguard_In in H. destruct H as (N' & H).
           destruct (mom c i) as [v|] eqn:F'; [|congruence]. simpl in H. destruct H as [H|[]]. injection H as <- <-.
           exists (dpid y p), u, v. repeat split; auto; [right; eauto|right; exists p; auto].
  - intros (i & u & v & -> & -> & Hu & Hv & [->|(p & Hp & E & B)]).
    + destruct Hu as [->|(k & Hk & F)], Hv as [->|(j & Hj & F')].
      * left. left. reflexivity.
      * right. right. left. exists j. split; [apply AX; auto|]. rewrite F'. apply fguard_In. split; [discriminate|]. left. reflexivity.
      * right. right. right. exists k. split; [apply AX; auto|]. apply in_app_iff. left. rewrite F. apply fguard_In. split; [discriminate|]. left. reflexivity.
      * right. right. right. exists k. split; [apply AX; auto|]. apply in_app_iff. left. rewrite F. apply fguard_In. split; [discriminate|]. right.
        apply in_flat_map. exists j. split; [apply AX; auto|]. rewrite F'. apply fguard_In. split; [discriminate|]. left. reflexivity.
    + subst i. destruct Hu as [->|(k & Hk & F)], Hv as [->|(j & Hj & F')].
      * right. left. exists p. repeat split; auto. left. reflexivity.
      * right. right. left. exists j. split; [apply AX; auto|]. rewrite F'. apply fguard_In. split; [discriminate|]. right.
        apply dps_In. exists p. repeat split; auto. left. reflexivity.
      * right. right. right. exists k. split; [apply AX; auto|]. apply in_app_iff. right. apply dps_In. exists p. repeat split; auto.
        rewrite (Hmp Hp), F. apply fguard_In. split; [discriminate|]. left. reflexivity.
      * right. right. right. exists k. split; [apply AX; auto|]. apply in_app_iff. right. apply dps_In. exists p. repeat split; auto.
        rewrite (Hmp Hp), F. apply fguard_In. split; [discriminate|]. right.
        apply in_flat_map. exists j. split; [apply AX; auto|]. rewrite F'. apply fguard_In. split; [discriminate|]. left. reflexivity.
Qed.
End D.
End TABLE.
