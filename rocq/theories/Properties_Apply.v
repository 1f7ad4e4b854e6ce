(** C67: a sub-network applies exactly the constant rates it was given. *)
From Coq Require Import Reals List Bool Arith Lia Lra.
From Verif Require Import Sums Partial FluxModel ConstModel ApplyModel ApplyProofs.
Import ListNotations.
Set Implicit Arguments.
Open Scope R_scope.

(** ** Statement vocabulary *)
(** The unknowns of a cluster: its own and those of its moments. *)
Definition owns (na : nat) (mom : nat -> nat -> option nat) (c u : nat) : Prop :=
  u = c \/ exists i, (i < na)%nat /\ mom c i = Some u.
(** The unknowns of a network: clusters 0 .. nc-1, moments nc .. dof-1, each unknown with one owner. *)
Definition layout (na : nat) (mom : nat -> nat -> option nat) (nc dof : nat) : Prop :=
  (nc <= dof)%nat
  /\ (forall c u, (c < nc)%nat -> owns na mom c u -> (u < dof)%nat)
  /\ (forall c c' u, (c < nc)%nat -> (c' < nc)%nat -> owns na mom c u -> owns na mom c' u -> c = c')
  /\ (forall c i m, (c < nc)%nat -> (i < na)%nat -> mom c i = Some m -> (nc <= m)%nat)
  /\ (forall c i j m, (c < nc)%nat -> (i < na)%nat -> (j < na)%nat -> mom c i = Some m -> mom c j = Some m -> i = j)
  /\ (forall u, (u < dof)%nat -> exists c, (c < nc)%nat /\ owns na mom c u).
(** Entries come by whole clusters: all unknowns of a cluster against all unknowns of another. *)
Definition whole (na : nat) (mom : nat -> nat -> option nat) (nc dof : nat) (M : nat -> nat -> bool) : Prop :=
  (forall i j u v, (i < nc)%nat -> (j < nc)%nat -> owns na mom i u -> owns na mom j v -> M u v = M i j)
  /\ (forall i u, (i < nc)%nat -> owns na mom i u -> M u dof = M i dof).

Notation pos dof M := (getPosition (csrRows dof (S dof) M) (csrEntries dof (S dof) M)) (only parsing).

(** ** The sparse table: an entry has a position exactly if it is listed, inside the vector of rates, and no two entries share one. *)
Theorem c67_position : forall dof M,
  (forall r c, (r < dof)%nat -> ((exists p, pos dof M r c = Some p) <-> M r c = true /\ (c <= dof)%nat))
  /\ (forall r c p, (r < dof)%nat -> pos dof M r c = Some p -> (p < length (csrEntries dof (S dof) M))%nat)
  /\ (forall r c r' c' p, (r < dof)%nat -> (r' < dof)%nat -> pos dof M r c = Some p -> pos dof M r' c' = Some p -> r = r' /\ c = c').
Proof.
  intros dof M. split; [|split].
  - intros r c H. split.
    + intros (p & E). apply position_only in E; auto. intuition lia.
    + intros (A & B). destruct (@position_some (S dof) M dof r c H A) as (p & P & _); [lia|]. eauto.
  - intros r c p H E. apply position_only in E; tauto.
  - intros r c r' c' p H H' E E'. eapply position_inj; eauto.
Qed.
Print Assumptions c67_position.
(** Three unknowns; row 0 has entries 1 and the constant one, row 2 has entry 0. *)
Definition M3 (r c : nat) : bool := match r, c with O, 1%nat => true | O, 3%nat => true | 2%nat, O => true | _, _ => false end.
Example c67_position_ex : csrRows 3 4 M3 = [0; 2; 2; 3]%nat /\ csrEntries 3 4 M3 = [1; 3; 0]%nat
  /\ pos 3 M3 0%nat 3%nat = Some 1%nat /\ pos 3 M3 2%nat 0%nat = Some 2%nat /\ pos 3 M3 1%nat 1%nat = None.
Proof. repeat split. Qed.

(** ** The constant reactions: one for every listed pair of clusters and for every cluster with a listed constant entry, none twice; none at all
    when the option is off. *)
Theorem c67_reactions : forall nc dof M, (nc <= dof)%nat ->
  let qs := constantReactions nc dof true (csrRows dof (S dof) M) (csrEntries dof (S dof) M) in
  NoDup qs
  /\ (forall i j, In (i, Some j) qs <-> (i < nc)%nat /\ (j < nc)%nat /\ M i j = true)
  /\ (forall i, In (i, None) qs <-> (i < nc)%nat /\ M i dof = true)
  /\ constantReactions nc dof false (csrRows dof (S dof) M) (csrEntries dof (S dof) M) = [].
Proof.
  intros nc dof M H qs. split; [apply gen_NoDup; auto|]. split; [|split; [|reflexivity]].
  - intros i j. unfold qs. rewrite gen_In by auto. simpl. split.
    + intros (A & B & L). apply (@listed_M nc dof M H) in L; [|lia]. tauto.
    + intros (A & B & L). repeat split; auto. apply (@listed_M nc dof M H); [lia|]. split; [auto|lia].
  - intros i. unfold qs. rewrite gen_In by auto. simpl. split.
    + intros (A & L). apply (@listed_M nc dof M H) in L; [|lia]. tauto.
    + intros (A & L). split; auto. apply (@listed_M nc dof M H); [lia|]. split; [auto|lia].
Qed.
Print Assumptions c67_reactions.
Example c67_reactions_ex : constantReactions 3 3 true (csrRows 3 4 M3) (csrEntries 3 4 M3) = [(0, None); (0, Some 1); (2, Some 0)]%nat.
Proof. reflexivity. Qed.

(** ** Right-hand side and Jacobian *)
Section WHOLE.
Variables (na : nat) (mom : nat -> nat -> option nat) (nc dof : nat) (M : nat -> nat -> bool).
Hypothesis L : layout na mom nc dof.
Hypothesis W : whole na mom nc dof M.
Let rows := csrRows dof (S dof) M.
Let entries := csrEntries dof (S dof) M.
Let qs := constantReactions nc dof true rows entries.

Lemma defined : forall rates q, In q qs -> exists ks, setRate na mom dof rows entries rates q = Some ks.
Proof.
  destruct L as (L1 & L2 & L3 & L4 & L5 & L6), W as (W1 & W2). intros rates q H. eexists.
  eapply setRate_ok; eauto.
Qed.
Variables (rates : nat -> R) (K : nat -> nat -> R).
Hypothesis HK : forall u v p, (u < dof)%nat -> pos dof M u v = Some p -> rates p = K u v.
Hypothesis H0 : forall u v, M u v = false -> K u v = 0.
Lemma given_K : forall u v, (u < dof)%nat -> (v <= dof)%nat -> given dof M rates u v = K u v.
Proof.
  intros u v A B. unfold given. destruct (getPosition _ _ u v) eqn:E; [apply HK; auto|].
  symmetry. apply H0. destruct (M u v) eqn:F; auto. destruct (@position_some (S dof) M dof u v A F) as (p & P & _); [lia|]. congruence.
Qed.
Lemma flux_K : forall conc d, (d < dof)%nat ->
  networkFlux na mom dof rows entries rates qs conc d = K d dof + Rsum (seq 0 dof) (fun c => K d c * conc c).
Proof.
  destruct L as (L1 & L2 & L3 & L4 & L5 & L6), W as (W1 & W2). intros conc d Hd.
  unfold qs, rows, entries. rewrite flux_sum with (nc := nc) by eauto. rewrite given_K by lia. f_equal. apply Rsum_ext.
  intros c Hc. apply in_seq in Hc. rewrite given_K by lia. reflexivity.
Qed.
Lemma jac_K : forall d c, (d < dof)%nat -> (c < dof)%nat -> networkJacobian na mom dof rows entries rates qs d c = K d c.
Proof.
  destruct L as (L1 & L2 & L3 & L4 & L5 & L6), W as (W1 & W2). intros d c Hd Hc.
  unfold qs, rows, entries. rewrite jac_sum with (nc := nc) by eauto. apply given_K; lia.
Qed.
End WHOLE.

(** Every rate a constant reaction reads is in the table. *)
Theorem c67_defined : forall na mom nc dof M, layout na mom nc dof -> whole na mom nc dof M ->
  forall rates q, In q (constantReactions nc dof true (csrRows dof (S dof) M) (csrEntries dof (S dof) M)) ->
  exists ks, setRate na mom dof (csrRows dof (S dof) M) (csrEntries dof (S dof) M) rates q = Some ks.
Proof. intros na mom nc dof M L W. exact (defined L W). Qed.
Print Assumptions c67_defined.

(** With the rates of a matrix K in the table, unknown d gets K(d, constant) + sum of K(d, c) times concentration c, moments included. *)
Theorem c67_flux : forall na mom nc dof M, layout na mom nc dof -> whole na mom nc dof M ->
  forall rates K, (forall u v p, (u < dof)%nat -> pos dof M u v = Some p -> rates p = K u v) -> (forall u v, M u v = false -> K u v = 0) ->
  forall conc d, (d < dof)%nat ->
  networkFlux na mom dof (csrRows dof (S dof) M) (csrEntries dof (S dof) M) rates
    (constantReactions nc dof true (csrRows dof (S dof) M) (csrEntries dof (S dof) M)) conc d
  = K d dof + Rsum (seq 0 dof) (fun c => K d c * conc c).
Proof. intros na mom nc dof M L W rates K HK H0. exact (flux_K L W rates K HK H0). Qed.
Print Assumptions c67_flux.

(** The Jacobian entries are those of K and the derivatives of the right-hand side. *)
Theorem c67_jacobian : forall na mom nc dof M, layout na mom nc dof -> whole na mom nc dof M ->
  forall rates K, (forall u v p, (u < dof)%nat -> pos dof M u v = Some p -> rates p = K u v) -> (forall u v, M u v = false -> K u v = 0) ->
  forall d c, (d < dof)%nat -> (c < dof)%nat ->
  let qs := constantReactions nc dof true (csrRows dof (S dof) M) (csrEntries dof (S dof) M) in
  let J := networkJacobian na mom dof (csrRows dof (S dof) M) (csrEntries dof (S dof) M) rates qs d c in
  J = K d c
  /\ forall conc, is_partial (fun x => networkFlux na mom dof (csrRows dof (S dof) M) (csrEntries dof (S dof) M) rates qs x d) conc c J.
Proof.
  intros na mom nc dof M L W rates K HK H0 d c Hd Hc qs J.
  assert (E : J = K d c) by exact (jac_K L W rates K HK H0 Hd Hc). split; auto. intros conc. rewrite E.
  apply pd_fun_ext with (f := fun x => K d dof + Rsum (seq 0 dof) (fun i => K d i * x i)).
  { intros x. symmetry. exact (flux_K L W rates K HK H0 x Hd). }
  apply pd_eq with (d := 0 + Rsum (seq 0 dof) (fun i => K d i * Partial.ind (i =? c)%nat)).
  - apply pd_plus; [apply pd_const|]. apply pd_Rsum. intros i _. apply pd_scal. apply pd_var.
  - rewrite Rplus_0_l. rewrite (@Rsum_single _ _ _ c); [unfold Partial.ind; rewrite Nat.eqb_refl; lra|apply seq_NoDup|apply in_seq; lia|].
    intros x _ N. unfold Partial.ind. destruct (Nat.eqb_spec x c); [congruence|lra].
Qed.
Print Assumptions c67_jacobian.

(** Two clusters, the second one a group with one moment (unknown 2), one axis. *)
Definition mom2 (c i : nat) : option nat := match c, i with 1%nat, O => Some 2%nat | _, _ => None end.
Definition M2 (u v : nat) : bool := match u, v with
  | O, 1%nat => true | O, 2%nat => true | 1%nat, 3%nat => true | 2%nat, 3%nat => true | _, _ => false end.
Lemma layout2 : layout 1 mom2 2 3.
Proof.
  assert (G : forall c u, (c < 2)%nat -> owns 1 mom2 c u -> u = c \/ (c = 1 /\ u = 2)%nat).
  { intros c u H [E|(i & Hi & E)]; auto. right. destruct c as [|[|c]]; [discriminate| |lia]. destruct i; [|lia]. simpl in E. injection E as <-. auto. }
  split; [lia|]. split; [|split; [|split; [|split]]].
  - intros c u H K. apply G in K; auto. lia.
  - intros c c' u H H' K K'. apply G in K, K'; auto. lia.
  - intros c i m H Hi E. assert (K : owns 1 mom2 c m) by (right; eauto). apply G in K; auto.
    destruct c as [|[|c]]; [discriminate| |lia]. destruct i; [|lia]. simpl in E. injection E as <-. lia.
  - intros. lia.
  - intros u H. destruct u as [|[|[|u]]]; [exists 0%nat|exists 1%nat|exists 1%nat|lia]; (split; [lia|]); [left; auto|left; auto|right; exists 0%nat; auto].
Qed.
Lemma whole2 : whole 1 mom2 2 3 M2.
Proof.
  assert (G : forall c u, (c < 2)%nat -> owns 1 mom2 c u -> u = c \/ (c = 1 /\ u = 2)%nat).
  { intros c u H [E|(i & Hi & E)]; auto. right. destruct c as [|[|c]]; [discriminate| |lia]. destruct i; [|lia]. simpl in E. injection E as <-. auto. }
  split.
  - intros i j u v Hi Hj U V. apply G in U, V; auto.
    destruct U as [->|(-> & ->)], V as [->|(-> & ->)]; repeat match goal with k : nat |- _ => destruct k as [|[|k]]; try lia end; reflexivity.
  - intros i u Hi U. apply G in U; auto. destruct U as [->|(-> & ->)]; reflexivity.
Qed.
(** entries: (0,1) (0,2) (1,const) (2,const) with rates 10, 20, 30, 40 *)
Example c67_flux_ex : layout 1 mom2 2 3 /\ whole 1 mom2 2 3 M2
  /\ constantReactions 2 3 true (csrRows 3 4 M2) (csrEntries 3 4 M2) = [(0, Some 1); (1, None)]%nat
  /\ let rates p := match p with O => 10 | 1%nat => 20 | 2%nat => 30 | _ => 40 end in
     let conc u := match u with O => 7 | 1%nat => 2 | _ => 3 end in
     let F := networkFlux 1 mom2 3 (csrRows 3 4 M2) (csrEntries 3 4 M2) rates [(0, Some 1); (1, None)]%nat conc in
     F 0%nat = 10 * 2 + 20 * 3 /\ F 1%nat = 30 /\ F 2%nat = 40.
Proof.
  split; [exact layout2|]. split; [exact whole2|]. split; [reflexivity|]. intros rates conc F. subst F. unfold networkFlux, acc. simpl. repeat split; lra.
Qed.

(** ** Connectivity: every Jacobian entry a constant reaction writes has been declared. *)
Theorem c67_connectivity : forall na mom dof rows entries rates q ks u v k,
  setRate na mom dof rows entries rates q = Some ks -> In (u, v, k) (constPartials q ks) ->
  In (u, v) (constConnectivity na mom q).
Proof.
  intros na mom dof rows entries rates (r0, o) ks u v k H I. unfold constPartials in I. simpl in I.
  destruct o as [r1|]; [|destruct I]. unfold setRate in H.
  assert (G : forall (l : list (nat * nat)) ys, collect (readRate rows entries rates) l = Some ys -> In (u, v, k) ys -> In (u, v) l).
  { induction l as [|(a, b) l IH]; simpl; intros ys E J.
    - injection E as <-. destruct J.
    - unfold readRate at 1 in E. simpl in E. destruct (getPosition rows entries a b) as [p|]; [|discriminate].
      destruct (p <? length entries)%nat; [|discriminate]. destruct (collect _ l) as [zs|] eqn:F; [|discriminate].
      injection E as <-. destruct J as [J|J]; [injection J as -> -> _; left; auto|right; eauto]. }
  pose proof (G _ _ H I) as S. unfold constConnectivity. apply in_app_iff. right. simpl snd. cbv iota.
  unfold slots in S. simpl snd in S. cbv iota in S. exact S.
Qed.
Print Assumptions c67_connectivity.
Example c67_connectivity_ex :
  let q := (0, Some 1)%nat in
  (exists ks, setRate 1 mom2 3 (csrRows 3 4 M2) (csrEntries 3 4 M2) (fun _ => 1) q = Some ks /\ In (0%nat, 2%nat, 1) (constPartials q ks))
  /\ In (0, 2)%nat (constConnectivity 1 mom2 q).
Proof. split; [eexists; split; [reflexivity|simpl; auto]|simpl; auto]. Qed.

(** ** Reduced Jacobian *)
(** Without groups the reduced version writes the diagonal entries, which are declared. *)
Theorem c67_reduced_plain : forall na mom r0 r1, (forall i, (i < na)%nat -> mom r0 i = None) -> (forall i, (i < na)%nat -> mom r1 i = None) ->
  (r1 = r0 -> reducedEntries na mom (r0, Some r1) = [Some (r0, r0)]) /\ (r1 <> r0 -> reducedEntries na mom (r0, Some r1) = [])
  /\ reducedEntries na mom (r0, None) = [] /\ In (r0, r0) (constReducedConnectivity na mom (r0, Some r1)).
Proof.
  intros na mom r0 r1 H H1. unfold reducedEntries. simpl. split; [|split; [|split; auto]].
  - intros ->. rewrite Nat.eqb_refl. f_equal.
    assert (G : forall A B (f : A -> list B) l, (forall x, In x l -> f x = []) -> flat_map f l = []).
    { induction l; intros K; simpl; auto. rewrite K by (left; auto). apply IHl. intros x I; apply K; right; auto. }
    apply G. intros i Hi. apply G. intros j Hj. apply axes_In in Hj. rewrite H; auto.
  - intros N. destruct (Nat.eqb_spec r1 r0); [congruence|reflexivity].
Qed.
Print Assumptions c67_reduced_plain.
Example c67_reduced_plain_ex : reducedEntries 1 mom2 (0, Some 0)%nat = [Some (0, 0)]%nat.
Proof. reflexivity. Qed.

(** For a cluster with a moment and a network with a second axis the reduced version always writes to an entry which was never assigned or is
    not on the diagonal, and the reduced connectivity only has diagonal entries. *)
Theorem c67_reduced_refuted : forall na mom r0 i j m, (i < na)%nat -> (j < na)%nat -> i <> j -> mom r0 j = Some m ->
  (forall m', mom r0 i = Some m' -> m' <> m) ->
  (exists e, In e (reducedEntries na mom (r0, Some r0)) /\ (e = None \/ exists u v, e = Some (u, v) /\ u <> v))
  /\ forall q u v, In (u, v) (constReducedConnectivity na mom q) -> u = v.
Proof.
  intros na mom r0 i j m Hi Hj N E D. split.
  - exists (connEntry mom r0 r0 (S i) (S j)). split.
    + unfold reducedEntries. simpl. rewrite Nat.eqb_refl. right. apply in_flat_map. exists i. split; [apply axes_In; auto|].
      apply in_flat_map. exists j. split; [apply axes_In; auto|]. rewrite E. left. reflexivity.
    + simpl. rewrite E. destruct (mom r0 i) as [m'|] eqn:E'; [|left; auto]. right. exists m', m. split; auto.
  - intros q u v H. unfold constReducedConnectivity in H. destruct H as [H|H]; [congruence|].
    apply in_flat_map in H. destruct H as (k & _ & H). destruct (mom (fst q) k) eqn:F; [|destruct H].
    apply in_flat_map in H. destruct H as (l & _ & H). destruct (Nat.eqb_spec k l) as [->|]; [|destruct H].
    rewrite F in H. simpl in H. destruct H as [H|[]]. congruence.
Qed.
Print Assumptions c67_reduced_refuted.
(** A void group of the Alloy network (axes V, Void, Faulted, ...): only its own axis has a moment. *)
Definition mom5 (c i : nat) : option nat := if ((c =? 4) && (i =? 1))%nat then Some 9%nat else None.
Example c67_reduced_refuted_ex : In None (reducedEntries 2 mom5 (4, Some 4)%nat) /\ constReducedConnectivity 2 mom5 (4, Some 4)%nat = [(4, 4); (9, 9)]%nat.
Proof. split; [simpl; auto|reflexivity]. Qed.

(** ** Where the rates come from: every contribution of a production has a declared entry; of a dissociation too, unless its row was never mapped *)
Theorem c67_mapped : forall inS x conc row col v, In (row, col, v) (prodConst inS x conc) -> row <> None /\ In (row, col) (prodConns inS x).
Proof.
  intros inS x conc row col v H.
  assert (GI : forall A (o : option nat) (l : list A) e, In e (guard o l) -> o <> None /\ In e l) by (intros A o l e K; exact (proj1 (@fguard_In A o l e) K)).
  assert (IG : forall A (o : option nat) (l : list A) e, o <> None -> In e l -> In e (guard o l)) by (intros A o l e K1 K2; exact (proj2 (@fguard_In A o l e) (conj K1 K2))).
  unfold prodConst, prodConns in *. destruct (inS (ra x)), (inS (rb x)); [destruct H| | |].
  1,2: (unfold constFirst, constSecond in H; unfold prodConnsIn;
    rewrite !in_app_iff in *; rewrite !in_flat_map in *;
    destruct H as [[H|[]]|[(p & Hp & H)|[(i & Hi & H)|(k & Hk & H)]]];
    [ injection H as <- <- _; split; [discriminate|left; left; reflexivity]
    | apply GI in H; destruct H as (N & H); apply when_In in H; destruct H as (B & [H|[]]); injection H as <- <- _;
      split; [auto|right; left]; unfold ps; apply in_flat_map; exists p; split; auto; apply IG; auto; apply when_In; split; auto; left; auto
    | apply GI in H; destruct H as (N & H); apply in_app_iff in H; destruct H as [[H|[]]|H];
      [ injection H as <- <- _; split; [discriminate|]; right; right; left; exists i; split; auto; apply IG; auto; left; reflexivity
      | apply in_flat_map in H; destruct H as (p & Hp & H); apply GI in H; destruct H as (N' & H); apply when_In in H; destruct H as (B & [H|[]]); injection H as <- <- _;
        split; [auto|]; right; right; left; exists i; split; auto; apply IG; auto; apply in_app_iff; right;
        unfold ps; apply in_flat_map; exists p; split; auto; apply IG; auto; apply when_In; split; auto; left; auto ]
    | apply in_app_iff in H; destruct H as [H|H];
      [ apply GI in H; destruct H as (N & H); apply in_app_iff in H; destruct H as [[H|[]]|H];
        [ injection H as <- <- _; split; [auto|]; right; right; right; exists k; split; auto; apply in_app_iff; left; apply IG; auto; left; reflexivity
        | apply in_flat_map in H; destruct H as (i & Hi & H); apply GI in H; destruct H as (N' & [H|[]]); injection H as <- <- _;
          split; [auto|]; right; right; right; exists k; split; auto; apply in_app_iff; left; apply IG; auto; right;
          apply in_flat_map; exists i; split; auto; apply IG; auto; left; reflexivity ]
      | apply in_flat_map in H; destruct H as (p & Hp & H); apply GI in H; destruct H as (N & H); apply when_In in H; destruct H as (B & H);
        apply GI in H; destruct H as (N2 & H); apply in_app_iff in H; destruct H as [[H|[]]|H];
        [ injection H as <- <- _; split; [auto|]; right; right; right; exists k; split; auto; apply in_app_iff; right;
          unfold ps; apply in_flat_map; exists p; split; auto; apply IG; auto; apply when_In; split; auto; apply IG; auto; left; reflexivity
        | apply in_flat_map in H; destruct H as (i & Hi & H); apply GI in H; destruct H as (N3 & [H|[]]); injection H as <- <- _;
          split; [auto|]; right; right; right; exists k; split; auto; apply in_app_iff; right;
          unfold ps; apply in_flat_map; exists p; split; auto; apply IG; auto; apply when_In; split; auto; apply IG; auto; right;
          apply in_flat_map; exists i; split; auto; apply IG; auto; left; reflexivity ] ] ]).
  destruct (noProd x); [destruct H|]. destruct (productInSub inS x); [|destruct H].
  unfold constOut in H. unfold prodConnsOut. rewrite in_app_iff in *. rewrite in_flat_map in *. destruct H as [(p & Hp & H)|H].
  - apply GI in H. destruct H as (N & H). apply when_In in H. destruct H as (B & [H|[]]). injection H as <- <- _.
    split; auto. left. unfold ps. apply in_flat_map. exists p. split; auto. apply IG; auto. apply when_In. split; auto. left; auto.
  - apply in_flat_map in H. destruct H as (k & Hk & H). apply in_flat_map in H. destruct H as (p & Hp & H). apply GI in H. destruct H as (N & H).
    apply when_In in H. destruct H as (B & H). apply GI in H. destruct H as (N2 & [H|[]]). injection H as <- <- _. split; auto.
    right. exists k. split; auto. unfold ps. apply in_flat_map. exists p. split; auto. apply IG; auto. apply when_In. split; auto. apply IG; auto. left; auto.
Qed.
Print Assumptions c67_mapped.

(** Two reactants of which the second is in the sub-network, with a product in it. *)
Definition xe : prx := {| xna := 1; ra := 7; rb := 1; ma := fun _ => None; mb := mom2 1; pid := fun p => if (p =? 0)%nat then Some 0%nat else None;
  mp := fun _ => mom2 0; va := 1; vb := 2; vp := fun _ => 1; rate := 3; cf := fun _ => 1 |}.
Definition inE (c : nat) : bool := (c <? 2)%nat.
Example c67_mapped_ex : prodConns inE xe
  = [(Some 1, Some 1); (Some 0, Some 1); (Some 1, Some 2); (Some 0, Some 2); (Some 2, Some 1); (Some 2, Some 2)]%nat
  /\ map fst (prodConst inE xe (fun _ => 1)) = prodConns inE xe.
Proof. split; reflexivity. Qed.

Theorem c67_mapped_dissociation : forall inS y conc row col v, In (row, col, v) (dissConst inS y conc) -> row <> None -> In (row, col) (dissConns inS y).
Proof.
  intros inS y conc row col v H NR.
  assert (GI : forall A (o : option nat) (l : list A) e, In e (guard o l) -> o <> None /\ In e l) by (intros A o l e K; exact (proj1 (@fguard_In A o l e) K)).
  assert (IG : forall A (o : option nat) (l : list A) e, o <> None -> In e l -> In e (guard o l)) by (intros A o l e K1 K2; exact (proj2 (@fguard_In A o l e) (conj K1 K2))).
  assert (DP : forall f e, (inS (dpid y 0) = true /\ In e (f 0%nat)) \/ (inS (dpid y 1) = true /\ In e (f 1%nat)) -> In e (dps inS y f)).
  { intros f e K. unfold dps. apply in_app_iff. destruct K as [(B & K)|(B & K)]; [left|right]; rewrite B; auto. }
  unfold dissConst, dissConns in *. destruct (negb (inS (rp y)) && negb (inS (dpid y 0)) && negb (inS (dpid y 1)))%bool; [destruct H|].
  destruct (inS (rp y) && inS (dpid y 0) && inS (dpid y 1))%bool; [destruct H|]. destruct (inS (rp y)).
  - unfold dconstIn in H. unfold dissConnsIn. rewrite !in_app_iff in *. rewrite !in_flat_map in *.
    destruct H as [[H|[]]|[H|[H|[(i & Hi & H)|(k & Hk & H)]]]].
    + injection H as <- <- _. left. left. reflexivity.
    + apply when_In in H. destruct H as (B & [H|[]]). injection H as <- <- _. right. left. apply DP. left. split; auto. left; auto.
    + apply when_In in H. destruct H as (B & [H|[]]). injection H as <- <- _. right. left. apply DP. right. split; auto. left; auto.
    + right. right. left. exists i. split; auto. apply GI in H. destruct H as (N & H). apply IG; auto.
      rewrite !in_app_iff in *. destruct H as [[H|[]]|[H|H]].
      * injection H as <- <- _. left. left. reflexivity.
      * apply when_In in H. destruct H as (B & [H|[]]). injection H as <- <- _. right. apply DP. left. split; auto. left; auto.
      * apply when_In in H. destruct H as (B & [H|[]]). injection H as <- <- _. right. apply DP. right. split; auto. left; auto.
    + right. right. right. exists k. split; auto. rewrite !in_app_iff in *. destruct H as [H|[H|H]].
      * left. apply GI in H. destruct H as (N & H). apply IG; auto. apply in_app_iff in H. destruct H as [[H|[]]|H].
        -- injection H as <- <- _. left. reflexivity.
        -- right. apply in_flat_map in H. destruct H as (i & Hi & H). apply GI in H. destruct H as (N' & [H|[]]). injection H as <- <- _.
           apply in_flat_map. exists i. split; auto. apply IG; auto. left; auto.
      * apply when_In in H. destruct H as (B & H). apply GI in H. destruct H as (N & H). apply in_app_iff in H. destruct H as [[H|[]]|H].
        -- injection H as <- <- _. right. apply DP. left. split; auto. apply IG; auto. left. reflexivity.
        -- apply in_flat_map in H. destruct H as (i & Hi & H). apply GI in H. destruct H as (N' & [H|[]]). injection H as <- <- _.
           left. apply IG; auto. right. apply in_flat_map. exists i. split; auto. apply IG; auto. left; auto.
      * apply when_In in H. destruct H as (B & H). apply GI in H. destruct H as (N & H). right. apply DP. right. split; auto. apply IG; auto.
        apply in_app_iff in H. destruct H as [[H|[]]|H].
        -- injection H as <- <- _. left. reflexivity.
        -- apply in_flat_map in H. destruct H as (i & Hi & H). apply GI in H. destruct H as (N' & [H|[]]). injection H as <- <- _.
           right. apply in_flat_map. exists i. split; auto. apply IG; auto. left; auto.
  - unfold dconstOut in H. unfold dissConnsOut. rewrite !in_app_iff in *. rewrite in_flat_map in *. destruct H as [H|[H|(k & Hk & H)]].
    + apply when_In in H. destruct H as (B & [H|[]]). injection H as <- <- _. left. apply DP. left. split; auto. left; auto.
    + apply when_In in H. destruct H as (B & [H|[]]). injection H as <- <- _. left. apply DP. right. split; auto. left; auto.
    + right. exists k. split; auto. apply in_app_iff in H. destruct H as [H|H]; apply when_In in H; destruct H as (B & H); apply GI in H; destruct H as (N & [H|[]]); injection H as <- <- _;
      apply DP; [left|right]; (split; [auto|]); apply IG; auto; left; auto.
Qed.
Print Assumptions c67_mapped_dissociation.
(** A group with one moment, inside, emits a single inside and something outside. *)
Definition ye : drx := {| yna := 1; rp := 1; mr := mom2 1; dpid := fun p => if (p =? 0)%nat then 0%nat else 7%nat; dmp := fun _ _ => None;
  vr := 2; dvp := fun _ => 1; drate := 3; dcf := fun _ => 1 |}.
Example c67_mapped_dissociation_ex : dissConns inE ye
  = [(Some 1, Some 1); (Some 0, Some 1); (Some 1, Some 2); (Some 0, Some 2); (Some 2, Some 1); (Some 2, Some 2)]%nat
  /\ map fst (dissConst inE ye (fun _ => 1)) = dissConns inE ye.
Proof. split; reflexivity. Qed.

(** ** The table comes by whole clusters *)
(** [l] is made of blocks: all unknowns of one cluster satisfying [P] against all unknowns of another, or against the constant. *)
Definition blocks (na : nat) (mom : nat -> nat -> option nat) (P : nat -> Prop) (l : conns) : Prop :=
  exists B : list (nat * option nat),
    (forall c o, In (c, o) B -> P c /\ forall c1, o = Some c1 -> P c1)
    /\ forall U V, In (U, V) l <-> exists c o u, In (c, o) B /\ U = Some u /\ owns na mom c u
         /\ match o with None => V = None | Some c1 => exists v, V = Some v /\ owns na mom c1 v end.
Definition goodP na mom nc (x : prx) : Prop :=
  xna x = na /\ ma x = mom (ra x) /\ mb x = mom (rb x) /\ (forall p d, pid x p = Some d -> mp x p = mom d /\ (d < nc)%nat)
  /\ (ra x < nc)%nat /\ (rb x < nc)%nat.
Definition goodD na mom nc (y : drx) : Prop :=
  yna y = na /\ mr y = mom (rp y) /\ (forall p, p = 0%nat \/ p = 1%nat -> dmp y p = mom (dpid y p) /\ (dpid y p < nc)%nat) /\ (rp y < nc)%nat.

Lemma blocks_nil : forall na mom P, blocks na mom P [].
Proof. intros. exists []. split; [intros c o []|]. intros U V. split; [intros []|]. intros (c & o & u & [] & _). Qed.
Lemma blocks_app : forall na mom P l l', blocks na mom P l -> blocks na mom P l' -> blocks na mom P (l ++ l').
Proof.
  intros na mom P l l' (B & B1 & B2) (B' & B1' & B2'). exists (B ++ B'). split.
  - intros c o H. apply in_app_iff in H. destruct H; eauto.
  - intros U V. rewrite in_app_iff, B2, B2'. split.
    + intros [(c & o & u & H & K)|(c & o & u & H & K)]; exists c, o, u; rewrite in_app_iff; auto.
    + intros (c & o & u & H & K). apply in_app_iff in H. destruct H; [left|right]; exists c, o, u; auto.
Qed.
Lemma blocks_flat_map : forall A na mom P (f : A -> conns) l, (forall x, In x l -> blocks na mom P (f x)) -> blocks na mom P (flat_map f l).
Proof.
  induction l as [|a l IH]; intros H; simpl; [apply blocks_nil|]. apply blocks_app; [apply H; left; auto|]. apply IH. intros x I; apply H; right; auto.
Qed.

Lemma pid_list : forall inS nc (x : prx), (forall p d, pid x p = Some d -> (d < nc)%nat) ->
  exists l : list nat, (forall i, In i l -> inS i = true /\ (i < nc)%nat) /\
    forall i, In i l <-> exists p, (p = 0%nat \/ p = 1%nat) /\ pid x p = Some i /\ inS i = true.
Proof.
  intros inS nc x H.
  assert (G : forall i, In i (flat_map (fun p => match pid x p with Some d => if inS d then [d] else [] | None => [] end) [0; 1]%nat)
     <-> exists p, (p = 0%nat \/ p = 1%nat) /\ pid x p = Some i /\ inS i = true).
  { intros i. rewrite in_flat_map. split.
    - intros (p & Hp & K). exists p. split; [simpl in Hp; intuition|]. destruct (pid x p) as [d|]; [|destruct K]. destruct (inS d) eqn:E; [|destruct K].
      destruct K as [<-|[]]. auto.
    - intros (p & Hp & E & B). exists p. split; [simpl; intuition|]. rewrite E, B. left; auto. }
  eexists. split; [|exact G]. intros i I. apply G in I. destruct I as (p & _ & E & B). eauto.
Qed.

Theorem c67_table : forall na mom nc inS x, goodP na mom nc x -> blocks na mom (fun c => inS c = true /\ (c < nc)%nat) (prodConns inS x).
Proof.
  intros na mom nc inS x (G1 & G2 & G3 & G4 & G5 & G6).
  assert (G4a : forall p d, pid x p = Some d -> mp x p = mom d) by (intros p d E; apply G4 in E; tauto).
  destruct (@pid_list inS nc x) as (l & Hl & Il). { intros p d E. apply G4 in E; tauto. }
  assert (IN : forall c, inS c = true -> (c < nc)%nat -> blocks na mom (fun c => inS c = true /\ (c < nc)%nat) (prodConnsIn inS x c (mom c))).
  { intros c B Hc. exists ((c, Some c) :: map (fun i => (i, Some c)) l). split.
    - intros a o [E|I]; [injection E as <- <-|apply in_map_iff in I; destruct I as (i & E & I); injection E as <- <-]; (split; [auto|intros c1 E; injection E as <-; auto]).
    - intros U V. rewrite (connsIn_In mom inS x G1 G4a). split.
      + intros (i & u & v & -> & -> & Hu & Hv & K). exists i, (Some c), u. split; [|repeat split; auto; exists v; auto].
        destruct K as [->|K]; [left; auto|right; apply in_map_iff; exists i; split; auto; apply Il; auto].
      + intros (i & o & u & I & -> & Hu & K). assert (E : o = Some c /\ (i = c \/ In i l)).
        { destruct I as [I|I]; [injection I as <- <-; auto|]. apply in_map_iff in I. destruct I as (j & E & I). injection E as <- <-. auto. }
        destruct E as (-> & E). destruct K as (v & -> & Hv). exists i, u, v. repeat split; auto. destruct E as [E|E]; [auto|right; apply Il; auto]. }
  unfold prodConns. destruct (inS (ra x)) eqn:Ea, (inS (rb x)) eqn:Eb.
  - apply blocks_nil.
  - rewrite G2. apply IN; auto.
  - rewrite G3. apply IN; auto.
  - destruct (noProd x); [apply blocks_nil|]. destruct (productInSub inS x); [|apply blocks_nil].
    exists (map (fun i => (i, None)) l). split.
    + intros a o I. apply in_map_iff in I. destruct I as (i & E & I). injection E as <- <-. split; [auto|discriminate].
    + intros U V. rewrite (connsOut_In mom inS x G1 G4a). split.
      * intros (p & d & u & Hp & E & B & -> & -> & Hu). exists d, None, u. repeat split; auto. apply in_map_iff. exists d. split; auto. apply Il. eauto.
      * intros (i & o & u & I & -> & Hu & K). apply in_map_iff in I. destruct I as (j & E & I). injection E as <- <-. apply Il in I. destruct I as (p & Hp & E & B).
        exists p, j, u. repeat split; auto.
Qed.
Print Assumptions c67_table.
Theorem c67_table_dissociation : forall na mom nc inS y, goodD na mom nc y -> blocks na mom (fun c => inS c = true /\ (c < nc)%nat) (dissConns inS y).
Proof.
  intros na mom nc inS y (G1 & G2 & G3 & G4).
  assert (G3a : forall p, p = 0%nat \/ p = 1%nat -> dmp y p = mom (dpid y p)) by (intros p E; apply G3 in E; tauto).
  set (l := filter inS [dpid y 0; dpid y 1]).
  assert (Il : forall i, In i l <-> exists p, (p = 0%nat \/ p = 1%nat) /\ dpid y p = i /\ inS i = true).
  { intros i. unfold l. rewrite filter_In. simpl. split.
    - intros ([E|[E|[]]] & B); [exists 0%nat|exists 1%nat]; auto.
    - intros (p & [->| ->] & E & B); auto. }
  assert (Hl : forall i, In i l -> inS i = true /\ (i < nc)%nat). { intros i I. apply Il in I. destruct I as (p & Hp & <- & B). apply G3 in Hp. tauto. }
  unfold dissConns. destruct (negb (inS (rp y)) && negb (inS (dpid y 0)) && negb (inS (dpid y 1)))%bool; [apply blocks_nil|].
  destruct (inS (rp y) && inS (dpid y 0) && inS (dpid y 1))%bool; [apply blocks_nil|]. destruct (inS (rp y)) eqn:Er.
  - exists ((rp y, Some (rp y)) :: map (fun i => (i, Some (rp y))) l). split.
    + intros a o [E|I]; [injection E as <- <-|apply in_map_iff in I; destruct I as (i & E & I); injection E as <- <-]; (split; [auto|intros c1 E; injection E as <-; auto]).
    + intros U V. rewrite (dissIn_In mom inS y G1 G3a G2). split.
      * intros (i & u & v & -> & -> & Hu & Hv & K). exists i, (Some (rp y)), u. split; [|repeat split; auto; exists v; auto].
        destruct K as [->|K]; [left; auto|right; apply in_map_iff; exists i; split; auto; apply Il; auto].
      * intros (i & o & u & I & -> & Hu & K). assert (E : o = Some (rp y) /\ (i = rp y \/ In i l)).
        { destruct I as [I|I]; [injection I as <- <-; auto|]. apply in_map_iff in I. destruct I as (j & E & I). injection E as <- <-. auto. }
        destruct E as (-> & E). destruct K as (v & -> & Hv). exists i, u, v. repeat split; auto. destruct E as [E|E]; [auto|right; apply Il; auto].
  - exists (map (fun i => (i, None)) l). split.
    + intros a o I. apply in_map_iff in I. destruct I as (i & E & I). injection E as <- <-. split; [auto|discriminate].
    + intros U V. rewrite (dissOut_In mom inS y G1 G3a). split.
      * intros (p & u & Hp & B & -> & -> & Hu). exists (dpid y p), None, u. repeat split; auto. apply in_map_iff. exists (dpid y p). split; auto. apply Il. eauto.
      * intros (i & o & u & I & -> & Hu & K). apply in_map_iff in I. destruct I as (j & E & I). injection E as <- <-. apply Il in I. destruct I as (p & Hp & <- & B).
        exists p, u. repeat split; auto.
Qed.
Print Assumptions c67_table_dissociation.
Example c67_table_ex : goodP 1 mom2 8 xe /\ goodD 1 mom2 8 ye.
Proof.
  split.
  - split; [reflexivity|]. split; [reflexivity|]. split; [reflexivity|]. split; [|simpl; lia].
    intros p d E. unfold xe, pid in E. destruct (p =? 0)%nat; [|discriminate]. injection E as <-. split; [reflexivity|lia].
  - split; [reflexivity|]. split; [reflexivity|]. split; [|simpl; lia].
    intros p [->| ->]; (split; [reflexivity|simpl; lia]).
Qed.

(** ** From the full network to the sub-network *)
Section SUB.
Variables (na : nat) (mom : nat -> nat -> option nat) (P : nat -> Prop).
Variables (f : nat -> nat) (momS : nat -> nat -> option nat) (nc dof : nat).
Hypothesis L : layout na momS nc dof.
Hypothesis Hf : forall c, P c -> (f c < nc)%nat.
Hypothesis Hm : forall c i, P c -> (i < na)%nat -> momS (f c) i = option_map f (mom c i).
Hypothesis Hinj : forall c u c' u', P c -> P c' -> owns na mom c u -> owns na mom c' u' -> f u = f u' -> u = u'.
Variables (l : conns).
Hypothesis HB : blocks na mom P l.
Let M := inTable f dof l.

Lemma owns_f : forall c u, P c -> owns na mom c u -> owns na momS (f c) (f u).
Proof.
  intros c u Hc [->|(i & Hi & E)]; [left; auto|right]. exists i. split; auto. rewrite Hm, E by auto. reflexivity.
Qed.
Lemma owns_back : forall c u, P c -> owns na momS (f c) u -> exists w, u = f w /\ owns na mom c w.
Proof.
  intros c u Hc [->|(i & Hi & E)]; [exists c; split; [auto|left; auto]|].
  rewrite Hm in E by auto. destruct (mom c i) as [w|] eqn:F; [|discriminate]. injection E as <-. exists w. split; auto. right; eauto.
Qed.
Lemma table_In : forall u v, M u v = true <-> exists a V, In (Some a, V) l /\ u = f a /\ v = match V with Some b => f b | None => dof end.
Proof.
  intros u v. unfold M, inTable. rewrite existsb_exists. split.
  - intros ((U, V) & I & E). apply andb_true_iff in E. destruct E as (E1 & E2). destruct U as [a|]; [|discriminate].
    apply Nat.eqb_eq in E1. exists a, V. split; auto. split; auto. destruct V; apply Nat.eqb_eq in E2; auto.
  - intros (a & V & I & -> & ->). exists (Some a, V). split; auto. rewrite Nat.eqb_refl. destruct V; rewrite Nat.eqb_refl; auto.
Qed.
Lemma whole_sub : whole na momS nc dof M.
Proof.
  destruct HB as (B & HP & HI). destruct L as (L1 & L2 & L3 & L4 & L5 & L6).
  (* a listed block, seen from any of its unknowns *)
  assert (K1 : forall i j u v, (i < nc)%nat -> (j < nc)%nat -> owns na momS i u -> owns na momS j v -> M u v = true ->
     exists c c1, In (c, Some c1) B /\ i = f c /\ j = f c1).
  { intros i j u v Hi Hj U V E. apply table_In in E. destruct E as (a & W & I & -> & Ev). apply HI in I.
    destruct I as (c & o & u' & I & Eu & Ha & K). injection Eu as <-. pose proof (HP c o I) as (Pc & Po).
    assert (i = f c) by (exact (L3 i (f c) (f a) Hi (Hf Pc) U (owns_f Pc Ha))).
    destruct o as [c1|].
    - destruct K as (b & -> & Hb). specialize (Po c1 eq_refl). subst v.
      assert (j = f c1) by (exact (L3 j (f c1) (f b) Hj (Hf Po) V (owns_f Po Hb))). eauto.
    - subst W. pose proof (L2 j v Hj V). lia. }
  assert (K2 : forall c c1 u v, In (c, Some c1) B -> owns na momS (f c) u -> owns na momS (f c1) v -> M u v = true).
  { intros c c1 u v I U V. pose proof (HP c _ I) as (Pc & Po). specialize (Po c1 eq_refl).
    destruct (owns_back Pc U) as (a & -> & Ha), (owns_back Po V) as (b & -> & Hb).
    apply table_In. exists a, (Some b). split; auto. apply HI. exists c, (Some c1), a. repeat split; auto. exists b; auto. }
  split.
  - intros i j u v Hi Hj U V. apply eq_true_iff_eq. split; intros E.
    + destruct (K1 i j u v Hi Hj U V E) as (c & c1 & I & -> & ->). apply (K2 c c1); auto; left; auto.
    + destruct (K1 i j i j Hi Hj (or_introl eq_refl) (or_introl eq_refl) E) as (c & c1 & I & -> & ->). apply (K2 c c1); auto.
  - assert (K3 : forall i u, (i < nc)%nat -> owns na momS i u -> M u dof = true -> exists c, In (c, None) B /\ i = f c).
    { intros i u Hi U E. apply table_In in E. destruct E as (a & W & I & -> & Ev). apply HI in I.
      destruct I as (c & o & u' & I & Eu & Ha & K). injection Eu as <-. pose proof (HP c o I) as (Pc & Po).
      assert (i = f c) by (exact (L3 i (f c) (f a) Hi (Hf Pc) U (owns_f Pc Ha))).
      destruct o as [c1|]; [|eauto]. destruct K as (b & -> & Hb). specialize (Po c1 eq_refl).
      pose proof (L2 (f c1) (f b) (Hf Po) (owns_f Po Hb)). lia. }
    assert (K4 : forall c u, In (c, None) B -> owns na momS (f c) u -> M u dof = true).
    { intros c u I U. pose proof (HP c _ I) as (Pc & _). destruct (owns_back Pc U) as (a & -> & Ha).
      apply table_In. exists a, None. split; auto. apply HI. exists c, None, a. repeat split; auto. }
    intros i u Hi U. apply eq_true_iff_eq. split; intros E.
    + destruct (K3 i u Hi U E) as (c & I & ->). apply (K4 c); auto. left; auto.
    + destruct (K3 i i Hi (or_introl eq_refl) E) as (c & I & ->). apply (K4 c); auto.
Qed.

Variable amounts : rcontribs.
Hypothesis HA : forall row col v, In (row, col, v) amounts -> row <> None /\ In (row, col) l.

Definition Kof (u v : nat) : R := Rsum (renumber f amounts)
  (fun '(row, col, w) => if (oeqb row u && ((match col with Some c => c | None => dof end) =? v)%nat)%bool then w else 0).
Lemma amount_sub : forall row col v, In (row, col, v) (renumber f amounts) ->
  exists a, row = Some a /\ (a < dof)%nat /\ M a (match col with Some c => c | None => dof end) = true
    /\ (forall c, col = Some c -> (c < dof)%nat).
Proof.
  destruct HB as (B & HP & HI). destruct L as (L1 & L2 & L3 & L4 & L5 & L6).
  intros row col v H. unfold renumber in H. apply in_map_iff in H. destruct H as (((U, V), w) & E & I). injection E as <- <- <-.
  apply HA in I. destruct I as (N & I). destruct U as [a|]; [|congruence]. pose proof I as I0. apply HI in I.
  destruct I as (c & o & u' & I & Eu & Ha & K). injection Eu as <-. pose proof (HP c o I) as (Pc & Po).
  exists (f a). split; auto. split; [exact (L2 _ _ (Hf Pc) (owns_f Pc Ha))|]. split.
  - apply table_In. exists a, V. repeat split; auto. destruct V; auto.
  - destruct V as [b|]; [|discriminate]. intros c0 E. injection E as <-. destruct o as [c1|]; [|discriminate].
    destruct K as (b' & E & Hb). injection E as <-. specialize (Po c1 eq_refl). exact (L2 _ _ (Hf Po) (owns_f Po Hb)).
Qed.
Lemma store_K : forall u v p, (u < dof)%nat -> pos dof M u v = Some p -> store dof M (renumber f amounts) p = Kof u v.
Proof.
  intros u v p Hu E. unfold store, Kof. apply Rsum_ext. intros ((row, col), w) I.
  destruct (amount_sub row col w I) as (a & -> & Ha & Hc & Hb). unfold position. simpl oeqb.
  set (b := match col with Some c => c | None => dof end) in *.
  assert (Lb : (b < S dof)%nat) by (unfold b; destruct col as [c|]; [pose proof (Hb c eq_refl); lia|lia]).
  destruct (@position_some (S dof) M dof a b Ha Hc Lb) as (q & Q & _). rewrite Q. simpl oeqb.
  destruct (Nat.eqb_spec q p) as [->|N].
  - destruct (@position_inj (S dof) M dof a b u v p Ha Hu Q E) as (Ea & Eb). rewrite Ea, Eb, !Nat.eqb_refl. reflexivity.
  - destruct (Nat.eqb_spec a u) as [->|]; simpl; auto. destruct (Nat.eqb_spec b v) as [->|]; auto. congruence.
Qed.
Lemma zero_K : forall u v, M u v = false -> Kof u v = 0.
Proof.
  intros u v E. unfold Kof. apply Rsum_zero. intros ((row, col), w) I. destruct (amount_sub row col w I) as (a & -> & Ha & Hc & Hb).
  simpl oeqb. destruct (Nat.eqb_spec a u) as [->|]; simpl; auto. destruct (Nat.eqb_spec (match col with Some c => c | None => dof end) v) as [F|]; auto.
  rewrite F in Hc. congruence.
Qed.
Lemma K_apply : forall conc d, Kof d dof + Rsum (seq 0 dof) (fun c => Kof d c * conc c) = capply (renumber f amounts) conc d.
Proof.
  intros conc d. unfold Kof, capply.
  replace (Rsum (seq 0 dof) _) with (Rsum (seq 0 dof) (fun c => Rsum (renumber f amounts)
    (fun '(row, col, w) => if (oeqb row d && ((match col with Some c => c | None => dof end) =? c)%nat)%bool then conc c * w else 0))).
  2:{ apply Rsum_ext. intros c _. rewrite <- Rsum_scal_r. apply Rsum_ext. intros ((row, col), w) _. destruct (oeqb row d && _)%bool; lra. }
  rewrite Rsum_swap, <- Rsum_plus. apply Rsum_ext. intros ((row, col), w) I.
  destruct (amount_sub row col w I) as (a & -> & Ha & Hc & Hb). destruct (oeqb (Some a) d); simpl.
  - destruct col as [c|].
    + specialize (Hb c eq_refl). destruct (Nat.eqb_spec c dof); [lia|]. rewrite (@Rsum_single _ _ _ c).
      * rewrite Nat.eqb_refl. lra.
      * apply seq_NoDup.
      * apply in_seq; lia.
      * intros x _ N. destruct (Nat.eqb_spec c x); [congruence|reflexivity].
    + rewrite Nat.eqb_refl. rewrite Rsum_zero; [lra|]. intros x Hx. apply in_seq in Hx. destruct (Nat.eqb_spec dof x); [lia|reflexivity].
  - rewrite Rsum_0. lra.
Qed.
Lemma apply_sub : forall conc c d, P c -> owns na mom c d -> capply (renumber f amounts) conc (f d) = capply amounts (fun u => conc (f u)) d.
Proof.
  destruct HB as (B & HP & HI).
  intros conc c d Pc Hd. unfold capply, renumber. rewrite Rsum_map. apply Rsum_ext. intros ((row, col), w) I.
  apply HA in I. destruct I as (N & I). destruct row as [a|]; [|congruence]. apply HI in I.
  destruct I as (c0 & o & u' & I & Eu & Ha & K). injection Eu as <-. pose proof (HP c0 o I) as (Pc0 & _). simpl.
  replace (f a =? f d)%nat with (a =? d)%nat.
  - destruct (a =? d)%nat; auto. destruct col; auto.
  - destruct (Nat.eqb_spec a d) as [->|N']; [rewrite Nat.eqb_refl; auto|]. destruct (Nat.eqb_spec (f a) (f d)) as [F|]; auto.
    exfalso. apply N'. exact (@Hinj c0 a c d Pc0 Pc Ha Hd F).
Qed.
Lemma sub_flux : forall conc c d, P c -> owns na mom c d ->
  networkFlux na momS dof (csrRows dof (S dof) M) (csrEntries dof (S dof) M) (store dof M (renumber f amounts))
    (constantReactions nc dof true (csrRows dof (S dof) M) (csrEntries dof (S dof) M)) conc (f d)
  = capply amounts (fun u => conc (f u)) d.
Proof.
  intros conc c d Pc Hd. rewrite (flux_K L whole_sub _ Kof store_K zero_K).
  - rewrite K_apply. eapply apply_sub; eauto.
  - destruct L as (L1 & L2 & _). exact (L2 _ _ (Hf Pc) (owns_f Pc Hd)).
Qed.
End SUB.

(** The whole way: the reactions of the full network fill the table of a sub-network, whose constant reactions then add, for every unknown of the
    sub-network, exactly the sum of the contributions of these reactions. (What one reaction contributes is the subject of C17.) *)
Theorem c67_sub : forall na mom ncF inS xs ys,
  (forall x, In x xs -> goodP na mom ncF x) ->
  (forall y, In y ys -> goodD na mom ncF y /\ forall k, dmp y 0 k <> None -> mr y k <> None) ->
  forall f momS nc dof, layout na momS nc dof ->
  (forall c, inS c = true -> (c < ncF)%nat -> (f c < nc)%nat) ->
  (forall c i, inS c = true -> (c < ncF)%nat -> (i < na)%nat -> momS (f c) i = option_map f (mom c i)) ->
  (forall c u c' u', inS c = true -> (c < ncF)%nat -> inS c' = true -> (c' < ncF)%nat ->
     owns na mom c u -> owns na mom c' u' -> f u = f u' -> u = u') ->
  let table := inTable f dof (flat_map (prodConns inS) xs ++ flat_map (dissConns inS) ys) in
  let rows := csrRows dof (S dof) table in
  let entries := csrEntries dof (S dof) table in
  forall c0,
  let amounts := flat_map (fun x => prodConst inS x c0) xs ++ flat_map (fun y => dissConst inS y c0) ys in
  forall conc c d, inS c = true -> (c < ncF)%nat -> owns na mom c d ->
  networkFlux na momS dof rows entries (store dof table (renumber f amounts)) (constantReactions nc dof true rows entries) conc (f d)
  = Rsum xs (fun x => capply (prodConst inS x c0) (fun u => conc (f u)) d)
    + Rsum ys (fun y => capply (dissConst inS y c0) (fun u => conc (f u)) d).
Proof.
  intros na mom ncF inS xs ys Hx Hy f momS nc dof L Hf Hm Hi table rows entries c0 amounts conc c d B Hc Hd.
  set (P := fun c => inS c = true /\ (c < ncF)%nat).
  assert (HB : blocks na mom P (flat_map (prodConns inS) xs ++ flat_map (dissConns inS) ys)).
  { apply blocks_app; apply blocks_flat_map; intros z I; [apply c67_table; auto|apply c67_table_dissociation; apply Hy; auto]. }
  assert (HA : forall row col v, In (row, col, v) amounts -> row <> None /\ In (row, col) (flat_map (prodConns inS) xs ++ flat_map (dissConns inS) ys)).
  { intros row col v I. unfold amounts in I. rewrite in_app_iff in *. destruct I as [I|I]; apply in_flat_map in I; destruct I as (z & I & K).
    - apply c67_mapped in K. destruct K as (N & K). split; auto. left. apply in_flat_map. eauto.
    - assert (N : row <> None).
      { destruct (Hy z I) as (_ & Hk). clear - K Hk. unfold dissConst in K.
        destruct (negb (inS (rp z)) && negb (inS (dpid z 0)) && negb (inS (dpid z 1)))%bool; [destruct K|].
        destruct (inS (rp z) && inS (dpid z 0) && inS (dpid z 1))%bool; [destruct K|]. destruct (inS (rp z)).
        - unfold dconstIn in K.
          repeat first [rewrite in_app_iff in K|rewrite in_flat_map in K|rewrite fguard_In in K|rewrite when_In in K].
          destruct K as [[K|[]]|[(_ & [K|[]])|[(_ & [K|[]])|[(i & _ & K)|(k & _ & K)]]]]; try (injection K as <- _ _; discriminate).
          + rewrite fguard_In in K. destruct K as (_ & K). rewrite !in_app_iff, !when_In in K.
            destruct K as [[K|[]]|[(_ & [K|[]])|(_ & [K|[]])]]; injection K as <- _ _; discriminate.
          + rewrite !in_app_iff, !when_In, !fguard_In, !in_app_iff, !in_flat_map in K.
            destruct K as [(N & [[K|[]]|(i & _ & K)])|[(_ & N & [[K|[]]|(i & _ & K)])|(_ & N & [[K|[]]|(i & _ & K)])]].
            * injection K as <- _ _; auto.
            * apply fguard_In in K. destruct K as (_ & [K|[]]). injection K as <- _ _; auto.
            * injection K as <- _ _; auto.
            * apply fguard_In in K. destruct K as (_ & [K|[]]). injection K as <- _ _. apply Hk; auto.
            * injection K as <- _ _; auto.
            * apply fguard_In in K. destruct K as (_ & [K|[]]). injection K as <- _ _; auto.
        - unfold dconstOut in K. rewrite !in_app_iff, !when_In, in_flat_map in K.
          destruct K as [(_ & [K|[]])|[(_ & [K|[]])|(k & _ & K)]]; try (injection K as <- _ _; discriminate).
          rewrite in_app_iff, !when_In, !fguard_In in K. destruct K as [(_ & N & [K|[]])|(_ & N & [K|[]])]; injection K as <- _ _; auto. }
      split; auto. right. apply in_flat_map. exists z. split; auto. apply c67_mapped_dissociation in K; auto. }
  unfold rows, entries, table.
  rewrite (@sub_flux na mom P f momS nc dof L) with (c := c); auto.
  - unfold amounts, capply. rewrite Rsum_app, !Rsum_flat_map. reflexivity.
  - intros c1 (A1 & A2). auto.
  - intros c1 i (A1 & A2). auto.
  - intros c1 u1 c2 u2 (A1 & A2) (A3 & A4). exact (Hi c1 u1 c2 u2 A1 A2 A3 A4).
  - split; auto.
Qed.
Print Assumptions c67_sub.
(** The production and the dissociation above, with the sub-network numbered in the opposite order of clusters. *)
Definition fS (u : nat) : nat := match u with O => 1%nat | 1%nat => O | _ => u end.
Definition momE (c i : nat) : option nat := match c, i with O, O => Some 2%nat | _, _ => None end.
Example c67_sub_ex : layout 1 momE 2 3
  /\ (forall c, inE c = true -> (c < 8)%nat -> (fS c < 2)%nat)
  /\ (forall c i, inE c = true -> (c < 8)%nat -> (i < 1)%nat -> momE (fS c) i = option_map fS (mom2 c i))
  /\ (forall k, dmp ye 0 k <> None -> mr ye k <> None)
  /\ Rsum [xe] (fun x => capply (prodConst inE x (fun _ => 1)) (fun _ => 1) 0%nat) <> 0.
Proof.
  split; [|split; [|split; [|split]]].
  - assert (G : forall c u, (c < 2)%nat -> owns 1 momE c u -> u = c \/ (c = 0 /\ u = 2)%nat).
    { intros c u H [E|(i & Hi & E)]; auto. right. destruct c as [|c]; [|discriminate]. destruct i; [|lia]. simpl in E. injection E as <-. auto. }
    split; [lia|]. split; [|split; [|split; [|split]]].
    + intros c u H K. apply G in K; auto. lia.
    + intros c c' u H H' K K'. apply G in K, K'; auto. lia.
    + intros c i m H Hi E. destruct c as [|c]; [|discriminate]. destruct i; [|lia]. simpl in E. injection E as <-. lia.
    + intros. lia.
    + intros u H. destruct u as [|[|[|u]]]; [exists 0%nat|exists 1%nat|exists 0%nat|lia]; (split; [lia|]); [left; auto|left; auto|right; exists 0%nat; auto].
  - intros c B _. unfold inE in B. apply Nat.ltb_lt in B. destruct c as [|[|c]]; simpl; lia.
  - intros c i B _ H. unfold inE in B. apply Nat.ltb_lt in B. destruct i; [|lia]. destruct c as [|[|c]]; try lia; reflexivity.
  - simpl. intros k N. congruence.
  - unfold capply, prodConst, constSecond. simpl. unfold dB0, dB1code, cR1, cmR1, cval, Sums.Rsum. simpl. lra.
Qed.
