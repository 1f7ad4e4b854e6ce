(** Lemmas about the grid in depth. *)
From Verif Require Import GridModel.
Open Scope R_scope.

Definition increasing (g : list R) : Prop := forall i, (S i < length g)%nat -> g.[i] < g.[S i].
Fixpoint dec (r : list R) : Prop :=
  match r with a :: ((b :: _) as t) => b < a /\ dec t | _ => True end.

Lemma nth_snoc (l : list R) a i : (l ++ [a]).[i] = if Nat.ltb i (length l) then l.[i] else if Nat.eqb i (length l) then a else 0.
Proof.
  destruct (Nat.ltb_spec i (length l)).
  - apply app_nth1; auto.
  - destruct (Nat.eqb_spec i (length l)).
    + subst. rewrite app_nth2, Nat.sub_diag by lia. reflexivity.
    + apply nth_overflow. rewrite app_length. cbn. lia.
Qed.
Lemma inc_snoc l a : increasing (l ++ [a]) <-> increasing l /\ (l = [] \/ l.[length l - 1] < a).
Proof.
  unfold increasing. rewrite app_length. cbn [length]. split.
  - intros H. split.
    + intros i Hi. specialize (H i ltac:(lia)). rewrite !nth_snoc in H.
      destruct (Nat.ltb_spec i (length l)); [|lia]. destruct (Nat.ltb_spec (S i) (length l)); [exact H|lia].
    + destruct l as [|b l]; [left; reflexivity|right]. specialize (H (length (b :: l) - 1)%nat). cbn [length] in *.
      specialize (H ltac:(lia)). rewrite !nth_snoc in H. cbn [length] in H.
      destruct (Nat.ltb_spec (S (length l) - 1) (S (length l))); [|lia].
      destruct (Nat.ltb_spec (S (S (length l) - 1)) (S (length l))); [lia|].
      destruct (Nat.eqb_spec (S (S (length l) - 1)) (S (length l))); [exact H|lia].
  - intros [H1 H2] i Hi. rewrite !nth_snoc. destruct (Nat.ltb_spec i (length l)); [|lia].
    destruct (Nat.ltb_spec (S i) (length l)); [apply H1; auto|].
    destruct (Nat.eqb_spec (S i) (length l)); [|lia]. destruct H2 as [-> | H2]; [cbn in *; lia|].
    replace i with (length l - 1)%nat by lia. exact H2.
Qed.
Lemma inc_rev r : increasing (rev r) <-> dec r.
Proof.
  induction r as [|a r IH]; [unfold increasing; cbn; split; intros; [auto|lia]|].
  cbn [rev]. rewrite inc_snoc, IH. destruct r as [|b r]; [cbn; intuition|].
  cbn [rev dec]. split.
  - intros [H1 [H2 | H2]]; [destruct (rev r); discriminate|]. split; auto.
    rewrite nth_snoc in H2. rewrite app_length in H2. cbn [length] in H2.
    destruct (Nat.ltb_spec (length (rev r) + 1 - 1) (length (rev r))); [lia|].
    destruct (Nat.eqb_spec (length (rev r) + 1 - 1) (length (rev r))); [exact H2|lia].
  - intros [H1 H2]. split; auto. right. rewrite nth_snoc, app_length. cbn [length].
    destruct (Nat.ltb_spec (length (rev r) + 1 - 1) (length (rev r))); [lia|].
    destruct (Nat.eqb_spec (length (rev r) + 1 - 1) (length (rev r))); [exact H1|lia].
Qed.
Lemma inc_dec g : increasing g <-> dec (rev g).
Proof. rewrite <- inc_rev, rev_involutive. tauto. Qed.
Lemma inc_le g i j : increasing g -> (i <= j < length g)%nat -> g.[i] <= g.[j].
Proof.
  intros H [H1 H2]. induction H1 as [|j H1 IH]; [lra|]. specialize (IH ltac:(lia)). specialize (H j ltac:(lia)). lra.
Qed.
Lemma inc_lt g i j : increasing g -> (i < j < length g)%nat -> g.[i] < g.[j].
Proof. intros H H1. pose proof (inc_le g (S i) j H ltac:(lia)). specialize (H i ltac:(lia)). lra. Qed.

(** Reading a grid from its end. *)
Lemma rev_at (r : list R) i : (i < length r)%nat -> (rev r).[i] = r.[length r - 1 - i].
Proof. intros H. rewrite rev_nth by auto. f_equal. lia. Qed.
Lemma rev_prefix (p q : list R) i : (i < length q)%nat -> (rev (p ++ q)).[i] = (rev q).[i].
Proof. intros H. rewrite rev_app_distr. apply app_nth1. rewrite rev_length. exact H. Qed.

Definition used (g : list R) : R := g.[length g - 2] - g.[1].

Lemma grow_spec k g : increasing g -> (4 <= length g)%nat -> (1 <= k < length g)%nat ->
  exists g', grow k g = Some g' /\ increasing g' /\ (length g <= length g' <= length g + 1)%nat /\
    bottom g' = bottom g + (g.[k] - g.[0]) /\ (forall i, (i < length g - 2)%nat -> g'.[i] = g.[i]) /\
    g'.[length g' - 1] - g'.[length g' - 2] = g'.[length g' - 2] - g'.[length g' - 3].
Proof.
  intros Hi Hn Hk. unfold grow. rewrite (nth_error_nth' g 0) by lia.
  pose proof (inc_lt g 0 k Hi ltac:(lia)) as Hs. set (s := g.[k] - g.[0]) in *. assert (0 < s) by (unfold s; lra). clearbody s.
  assert (Eg := rev_involutive g). apply inc_dec in Hi. rewrite <- rev_length in Hn.
  destruct (rev g) as [|e [|x [|y [|z r]]]]; cbn [length] in Hn; try lia. destruct Hi as [D1 [D2 [D3 D4]]].
  assert (Hb : bottom g = x).
  { unfold bottom. rewrite <- Eg, rev_length, rev_at by (cbn [length]; lia). cbn [length].
    replace (S (S (S (S (length r)))) - 1 - (S (S (S (S (length r)))) - 2))%nat with 1%nat by lia. reflexivity. }
  assert (Hl : length g = (4 + length r)%nat) by (rewrite <- Eg, rev_length; cbn [length]; lia).
  destruct (Rlt_dec (x - y) (y - z - 1.0e-4)) as [L|L].
  - set (x' := x + s). exists (rev (2 * x' - y :: x' :: y :: z :: r)). split; [reflexivity|].
    set (g' := rev (2 * x' - y :: x' :: y :: z :: r)).
    assert (Hl' : length g' = (4 + length r)%nat) by (unfold g'; rewrite rev_length; cbn [length]; lia).
    assert (At : forall j, (j < 4)%nat -> g'.[length g' - 1 - j] = nth j [2 * x' - y; x'; y; z] 0).
    { intros j Hj. rewrite Hl'. unfold g'. rewrite rev_at by (cbn [length]; lia). cbn [length].
      replace (S (S (S (S (length r)))) - 1 - (4 + length r - 1 - j))%nat with j by lia.
      destruct j as [|[|[|[|j]]]]; try reflexivity; lia. }
    repeat split.
    + apply inc_rev. unfold x'. repeat split; try lra; auto.
    + lia.
    + lia.
    + unfold bottom. replace (length g' - 2)%nat with (length g' - 1 - 1)%nat by lia. rewrite At by lia. rewrite <- Hb in *. unfold bottom in *. cbn [nth]. unfold x'. lra.
    + intros i Hii. rewrite Hl in Hii. rewrite <- Eg. unfold g'.
      rewrite (rev_prefix [2 * x' - y; x'] (y :: z :: r)) by (cbn [length]; lia).
      rewrite (rev_prefix [e; x] (y :: z :: r)) by (cbn [length]; lia). reflexivity.
    + pose proof (At 0%nat ltac:(lia)) as A0. pose proof (At 1%nat ltac:(lia)) as A1. pose proof (At 2%nat ltac:(lia)) as A2.
      cbn [nth] in *. replace (length g' - 1 - 0)%nat with (length g' - 1)%nat in A0 by lia.
      replace (length g' - 1 - 1)%nat with (length g' - 2)%nat in A1 by lia. replace (length g' - 1 - 2)%nat with (length g' - 3)%nat in A2 by lia. lra.
  - set (e' := x + s). exists (rev (2 * e' - x :: e' :: x :: y :: z :: r)). split; [reflexivity|].
    set (g' := rev (2 * e' - x :: e' :: x :: y :: z :: r)).
    assert (Hl' : length g' = (5 + length r)%nat) by (unfold g'; rewrite rev_length; cbn [length]; lia).
    assert (At : forall j, (j < 4)%nat -> g'.[length g' - 1 - j] = nth j [2 * e' - x; e'; x; y] 0).
    { intros j Hj. rewrite Hl'. unfold g'. rewrite rev_at by (cbn [length]; lia). cbn [length].
      replace (S (S (S (S (S (length r))))) - 1 - (5 + length r - 1 - j))%nat with j by lia.
      destruct j as [|[|[|[|j]]]]; try reflexivity; lia. }
    repeat split.
    + apply inc_rev. unfold e'. repeat split; try lra; auto.
    + lia.
    + lia.
    + unfold bottom. replace (length g' - 2)%nat with (length g' - 1 - 1)%nat by lia. rewrite At by lia. rewrite <- Hb in *. unfold bottom in *. cbn [nth]. unfold e'. lra.
    + intros i Hii. rewrite Hl in Hii. rewrite <- Eg. unfold g'.
      rewrite (rev_prefix [2 * e' - x; e'; x] (y :: z :: r)) by (cbn [length]; lia).
      rewrite (rev_prefix [e; x] (y :: z :: r)) by (cbn [length]; lia). reflexivity.
    + pose proof (At 0%nat ltac:(lia)) as A0. pose proof (At 1%nat ltac:(lia)) as A1. pose proof (At 2%nat ltac:(lia)) as A2.
      cbn [nth] in *. replace (length g' - 1 - 0)%nat with (length g' - 1)%nat in A0 by lia.
      replace (length g' - 1 - 1)%nat with (length g' - 2)%nat in A1 by lia. replace (length g' - 1 - 2)%nat with (length g' - 3)%nat in A2 by lia. lra.
Qed.

(** The loop of the removal stops at a point which is far enough. *)
Lemma trim_spec before x : (exists y, In y before /\ y + 1.0e-4 <= x) ->
  exists p y r, before = p ++ y :: r /\ trim x before = Some (y, r) /\ y + 1.0e-4 <= x /\ Forall (fun a => x < a + 1.0e-4) p.
Proof.
  induction before as [|a b IH]; intros [y [Hy Hle]]; [destruct Hy|]. cbn [trim].
  destruct (Rlt_dec x (a + 1.0e-4)) as [L|L].
  - destruct Hy as [-> | Hy]; [lra|]. destruct (IH ltac:(eauto)) as [p [y' [r [E1 [E2 [E3 E4]]]]]].
    exists (a :: p), y', r. rewrite E1, <- E2. repeat split; auto. rewrite E1. reflexivity.
  - exists [], a, b. repeat split; auto. lra.
Qed.
Lemma dec_app p q : dec (p ++ q) -> dec q.
Proof. induction p as [|a p IH]; [auto|]. cbn [app]. intros H. apply IH. destruct (p ++ q); [exact I|apply H]. Qed.

Lemma shrink_spec k g : increasing g -> (4 <= length g)%nat -> (1 <= k < length g)%nat -> g.[k] - g.[0] + 1.0e-4 <= used g ->
  exists g', shrink k g = Some g' /\ increasing g' /\ (4 <= length g' <= length g)%nat /\
    bottom g' = bottom g - (g.[k] - g.[0]) /\ (forall i, (i < length g' - 2)%nat -> g'.[i] = g.[i]) /\
    g'.[length g' - 1] - g'.[length g' - 2] = g'.[length g' - 2] - g'.[length g' - 3] /\
    g'.[length g' - 3] + 1.0e-4 <= bottom g' /\ (forall i, (length g' - 2 <= i < length g - 2)%nat -> bottom g' < g.[i] + 1.0e-4).
Proof.
  intros Hi Hn Hk Hu. unfold shrink. rewrite (nth_error_nth' g 0) by lia.
  pose proof (inc_lt g 0 k Hi ltac:(lia)) as Hs. unfold used in Hu. fold (bottom g) in Hu.
  set (s := g.[k] - g.[0]) in *. assert (0 < s) by (unfold s; lra). clearbody s.
  assert (Eg := rev_involutive g). apply inc_dec in Hi. rewrite <- rev_length in Hn.
  destruct (rev g) as [|e [|x before]]; cbn [length] in Hn; try lia. destruct Hi as [D1 D2].
  assert (Hl : length g = (2 + length before)%nat) by (rewrite <- Eg, rev_length; cbn [length]; lia).
  assert (Hb : bottom g = x).
  { unfold bottom. rewrite <- Eg, rev_length, rev_at by (cbn [length]; lia). cbn [length].
    replace (S (S (length before)) - 1 - (S (S (length before)) - 2))%nat with 1%nat by lia. reflexivity. }
  rewrite Hb in Hu. set (x' := x - s).
  assert (G1 : g.[1] = before.[length before - 2]).
  { rewrite <- Eg. rewrite (rev_prefix [e; x] before) by lia. rewrite rev_at by lia. f_equal. lia. }
  destruct (trim_spec before x') as [p [y [r [E1 [E2 [E3 E4]]]]]].
  { exists (g.[1]). split; [rewrite G1; apply nth_In; lia|]. unfold x'. lra. }
  rewrite E2. exists (rev (2 * x' - y :: x' :: y :: r)). split; [reflexivity|].
  set (g' := rev (2 * x' - y :: x' :: y :: r)).
  assert (Hl' : length g' = (3 + length r)%nat) by (unfold g'; rewrite rev_length; cbn [length]; lia).
  assert (Hlb : length before = (length p + 1 + length r)%nat) by (rewrite E1, app_length; cbn [length]; lia).
  assert (At : forall j, (j < 3)%nat -> g'.[length g' - 1 - j] = nth j [2 * x' - y; x'; y] 0).
  { intros j Hj. rewrite Hl'. unfold g'. rewrite rev_at by (cbn [length]; lia). cbn [length].
    replace (S (S (S (length r))) - 1 - (3 + length r - 1 - j))%nat with j by lia.
    destruct j as [|[|[|j]]]; try reflexivity; lia. }
  pose proof (At 0%nat ltac:(lia)) as A0. pose proof (At 1%nat ltac:(lia)) as A1. pose proof (At 2%nat ltac:(lia)) as A2.
  cbn [nth] in A0, A1, A2. replace (length g' - 1 - 0)%nat with (length g' - 1)%nat in A0 by lia.
  replace (length g' - 1 - 1)%nat with (length g' - 2)%nat in A1 by lia. replace (length g' - 1 - 2)%nat with (length g' - 3)%nat in A2 by lia.
  assert (D3 : dec (y :: r)).
  { destruct before as [|b0 bt] eqn:Eb; [destruct p; discriminate|]. rewrite <- Eb in *.
    apply (dec_app p). rewrite <- E1. rewrite Eb in D2 |- *. apply D2. }
  assert (Hr : (1 <= length r)%nat).
  { destruct r as [|r0 r]; [exfalso|cbn [length]; lia].
    rewrite Forall_forall in E4. assert (Hin : In (g.[1]) p).
    { rewrite G1, E1. replace (length (p ++ [y]) - 2)%nat with (length p - 1)%nat by (rewrite app_length; cbn [length]; lia).
      cbn [length] in Hlb. rewrite app_nth1 by lia. apply nth_In. lia. }
    specialize (E4 _ Hin). unfold x' in *. lra. }
  repeat split.
  - apply inc_rev. repeat split; try lra. exact D3.
  - lia.
  - lia.
  - unfold bottom at 1. rewrite A1, Hb. reflexivity.
  - intros i Hii. rewrite Hl' in Hii. rewrite <- Eg. unfold g'.
    rewrite (rev_prefix [2 * x' - y; x'] (y :: r)) by (cbn [length]; lia).
    rewrite E1. rewrite (rev_prefix (e :: x :: p) (y :: r)) by (cbn [length]; lia). reflexivity.
  - rewrite A0, A1, A2. lra.
  - unfold bottom. rewrite A1, A2. exact E3.
  - intros i Hii. unfold bottom. rewrite A1. rewrite Hl', Hl, Hlb in Hii.
    rewrite <- Eg. rewrite (rev_prefix [e; x] before) by lia. rewrite rev_at by lia.
    rewrite E1. rewrite app_nth1 by (rewrite app_length; cbn [length]; lia).
    rewrite Forall_forall in E4. apply E4. apply nth_In. rewrite app_length. cbn [length]. lia.
Qed.

(** ** First grids *)
Lemma inc_cons a b l : increasing (a :: b :: l) <-> a < b /\ increasing (b :: l).
Proof.
  unfold increasing. cbn [length]. split.
  - intros H. split; [apply (H 0%nat); lia|]. intros i Hi. apply (H (S i)). lia.
  - intros [H1 H2] [|i] Hi; [exact H1|]. apply H2. lia.
Qed.
Lemma inc_single a : increasing [a].
Proof. intros i Hi. cbn in Hi. lia. Qed.
Lemma push_increasing step n : forall l x, (forall i, (l <= i)%nat -> 0 < step i) -> increasing (pushPoints step l n x).
Proof.
  induction n as [|n IH]; intros l x H; [intros i Hi; cbn in Hi; lia|].
  cbn [pushPoints]. destruct n as [|n]; [apply inc_single|]. cbn [pushPoints]. apply inc_cons. split.
  - specialize (H l ltac:(lia)). lra.
  - specialize (IH (S l) (x + step l)). cbn [pushPoints] in IH. apply IH. intros i Hi. apply H. lia.
Qed.
Lemma push_length step n : forall l x, length (pushPoints step l n x) = n.
Proof. induction n as [|n IH]; intros; cbn; [reflexivity|]. rewrite IH. reflexivity. Qed.
Lemma inc_app_snoc l a b : increasing (l ++ [a]) -> a < b -> increasing (l ++ [a; b]).
Proof.
  intros H Hab. change [a; b] with ([a] ++ [b]). rewrite app_assoc. apply inc_snoc. split; auto. right.
  rewrite app_length. cbn [length]. rewrite nth_snoc.
  destruct (Nat.ltb_spec (length l + 1 - 1) (length l)); [lia|]. destruct (Nat.eqb_spec (length l + 1 - 1) (length l)); [exact Hab|lia].
Qed.
Lemma inc_map (l : list R) c : increasing l -> increasing (map (fun t => t + c) l).
Proof.
  intros H i Hi. rewrite map_length in Hi. rewrite !(nth_indep _ 0 ((fun t => t + c) 0)) by (rewrite map_length; lia).
  rewrite !(map_nth (fun t => t + c)). specialize (H i Hi). lra.
Qed.
Lemma read_increasing tokens : increasing tokens -> (2 <= length tokens)%nat -> 0 <= tokens.[0] ->
  exists g, gridRead tokens = Some g /\ increasing g /\ (length g >= length tokens + 2)%nat.
Proof.
  intros H Hn H0. assert (Hr := H). apply inc_dec in Hr. assert (Eg := rev_involutive tokens).
  assert (Hn' := Hn). rewrite <- rev_length in Hn'. unfold gridRead.
  destruct (rev tokens) as [|tn [|tm r]] eqn:Er; cbn [length] in Hn'; try lia.
  destruct tokens as [|t0 [|t1 tk]]; cbn [length] in Hn; try lia. cbn [nth] in H0.
  pose proof (proj1 (inc_cons _ _ _) H) as [H01 _]. destruct Hr as [Hr _]. 
  set (off := t1 - t0). assert (0 < off) by (unfold off; lra).
  pose proof (inc_map _ off H) as Hm.
  assert (Hlast : increasing (map (fun t => t + off) (t0 :: t1 :: tk) ++ [2 * tn - tm + off])).
  { rewrite <- Eg in Hm |- *. cbn [rev] in *. rewrite map_app in *. cbn [map] in *. rewrite <- app_assoc. apply inc_app_snoc; [exact Hm|]. lra. }
  rewrite Er. eexists. split; [reflexivity|]. destruct (Rlt_dec 0 t0) as [L|L].
  - cbn [app map] in *. split; [|cbn [length]; rewrite app_length, map_length; cbn; lia].
    apply inc_cons. split; [auto|]. apply inc_cons. split; [lra|]. exact Hlast.
  - cbn [app map] in *. split; [|cbn [length]; rewrite app_length, map_length; cbn; lia].
    apply inc_cons. split; [lra|]. exact Hlast.
Qed.

(** ** Histories *)
Fixpoint run (ms : list Z) (g : list R) : option (list R) :=
  match ms with
  | [] => Some g
  | m :: r => match moveGrid m g with Some g' => run r g' | None => None end
  end.
(** the distance of one move, measured on the grid [g] *)
Definition dist (g : list R) (m : Z) : R := IZR (Z.sgn m) * (g.[Z.abs_nat m] - g.[0]).
Lemma dist_same g g' n m : (forall i, (i < n)%nat -> g'.[i] = g.[i]) -> (0 < n)%nat -> (Z.abs_nat m < n)%nat -> dist g' m = dist g m.
Proof. intros H H0 Hm. unfold dist. rewrite (H 0%nat), (H _ Hm) by lia. reflexivity. Qed.
Lemma move_spec n m g : increasing g -> (2 <= n)%nat -> (n + 2 <= length g)%nat -> (1 <= Z.abs_nat m < n)%nat ->
  g.[n - 1] + 1.0e-4 <= bottom g + dist g m ->
  exists g', moveGrid m g = Some g' /\ increasing g' /\ (n + 2 <= length g')%nat /\ bottom g' = bottom g + dist g m /\
    (forall i, (i < n)%nat -> g'.[i] = g.[i]).
Proof.
  intros Hi Hn Hl Hm Hb. unfold moveGrid. destruct (Z.ltb_spec 0 m) as [P|P].
  - destruct (grow_spec (Z.to_nat m) g Hi ltac:(lia) ltac:(lia)) as [g' [E [I' [L' [B' [F' _]]]]]].
    exists g'. repeat split; auto; try lia.
    + rewrite B'. unfold dist. rewrite Z.sgn_pos by lia. replace (Z.abs_nat m) with (Z.to_nat m) by lia. lra.
    + intros i Hii. apply F'. lia.
  - assert (Ed : dist g m = - (g.[Z.to_nat (- m)] - g.[0])).
    { unfold dist. rewrite Z.sgn_neg by lia. replace (Z.abs_nat m) with (Z.to_nat (- m)) by lia. lra. }
    rewrite Ed in *. pose proof (inc_le g 1 (n - 1) Hi ltac:(lia)) as H1.
    destruct (shrink_spec (Z.to_nat (- m)) g Hi ltac:(lia) ltac:(lia)) as [g' [E [I' [L' [B' [F' [_ [_ C']]]]]]]].
    { unfold used. fold (bottom g). lra. }
    assert (n + 2 <= length g')%nat.
    { destruct (le_lt_dec (n + 2) (length g')) as [|X]; [auto|exfalso].
      specialize (C' (n - 1)%nat ltac:(lia)). lra. }
    exists g'. repeat split; auto. intros i Hii. apply F'. lia.
Qed.
Lemma history_spec n ms : forall g, increasing g -> (2 <= n)%nat -> (n + 2 <= length g)%nat ->
  Forall (fun m => (1 <= Z.abs_nat m < n)%nat) ms ->
  (forall p q, ms = p ++ q -> p <> [] -> g.[n - 1] + 1.0e-4 <= bottom g + Rsum p (dist g)) ->
  exists g', run ms g = Some g' /\ increasing g' /\ (n + 2 <= length g')%nat /\ bottom g' = bottom g + Rsum ms (dist g) /\
    (forall i, (i < n)%nat -> g'.[i] = g.[i]).
Proof.
  induction ms as [|m ms IH]; intros g Hi Hn Hl Hf Hp.
  - exists g. cbn. repeat split; auto. lra.
  - inversion Hf as [|? ? Hm Hms]. subst.
    destruct (move_spec n m g Hi Hn Hl Hm) as [g1 [E1 [I1 [L1 [B1 F1]]]]].
    { specialize (Hp [m] ms eq_refl ltac:(discriminate)). cbn in Hp. lra. }
    assert (Ed : forall p, Forall (fun m => (1 <= Z.abs_nat m < n)%nat) p -> Rsum p (dist g1) = Rsum p (dist g)).
    { intros p Hpf. apply Rsum_ext. intros a Ha. rewrite Forall_forall in Hpf. specialize (Hpf a Ha). apply (dist_same g g1 n); auto; lia. }
    destruct (IH g1 I1 Hn L1 Hms) as [g' [E' [I' [L' [B' F']]]]].
    { intros p q Epq Hne. rewrite (F1 (n - 1)%nat) by lia. rewrite B1.
      rewrite Ed by (rewrite Epq in Hms; apply Forall_app in Hms; apply Hms).
      specialize (Hp (m :: p) q ltac:(rewrite Epq; reflexivity) ltac:(discriminate)). cbn [Rsum] in Hp. lra. }
    exists g'. cbn [run]. rewrite E1. repeat split; auto.
    + rewrite B', B1, Ed by auto. cbn [Rsum]. lra.
    + intros i Hii. rewrite F' by auto. apply F1. auto.
Qed.

(** ** Surface events *)
Lemma back_spec g fuel : forall xi n off n' off', increasing g -> (fuel + xi < length g)%nat -> back fuel xi g n off = Some (n', off') ->
  exists k, (k <= fuel)%nat /\ off' = (off - Z.of_nat k)%Z /\ n' = n + tungstenDensity * (g.[xi + k] - g.[xi]) /\ 0 <= n' /\
    (n < 0 -> (1 <= k)%nat /\ n' < tungstenDensity * (g.[xi + k] - g.[xi + k - 1])).
Proof.
  induction fuel as [|f IH]; intros xi n off n' off' Hi Hl; cbn [back]; destruct (Rlt_dec n 0) as [L|L]; try discriminate.
  - intros E. injection E as E1 E2. subst. exists 0%nat. rewrite Nat.add_0_r. repeat split; try lia; try lra.
  - intros E. destruct (IH (S xi) _ _ _ _ Hi ltac:(lia) E) as [k [K1 [K2 [K3 [K4 K5]]]]].
    exists (S k). replace (xi + S k)%nat with (S xi + k)%nat by lia. repeat split; try lia; auto.
    + replace (xi + 1)%nat with (S xi) in K3 by lia. rewrite K3. lra.
    + destruct (Rlt_dec (n + tungstenDensity * (g.[xi + 1] - g.[xi])) 0) as [N|N].
      * destruct (K5 N) as [_ K6]. exact K6.
      * assert (k = 0%nat). { destruct f; cbn [back] in E; destruct (Rlt_dec _ 0) in E; try lra; injection E as E1 E2; lia. }
        subst k. rewrite Nat.add_0_r in *. replace (S xi - 1)%nat with xi by lia.
        replace (xi + 1)%nat with (S xi) in K3 by lia. lra.
  - intros E. injection E as E1 E2. subst. exists 0%nat. rewrite Nat.add_0_r. repeat split; try lia; try lra.
Qed.
Lemma back_total g fuel : forall xi n off, (0 <= n + tungstenDensity * (g.[xi + fuel] - g.[xi])) -> exists r, back fuel xi g n off = Some r.
Proof.
  induction fuel as [|f IH]; intros xi n off H; cbn [back]; destruct (Rlt_dec n 0); eauto.
  - rewrite Nat.add_0_r in H. lra.
  - apply IH. replace (S xi + f)%nat with (xi + S f)%nat by lia. replace (xi + 1)%nat with (S xi) by lia. lra.
Qed.

(** ** Transfer *)
Lemma look_some old d is i : look old d is = Some i -> In i is /\ bottom old - old.[i + 1] - 1.0e-4 < d.
Proof.
  induction is as [|a r IH]; cbn [look]; [discriminate|]. destruct (Rlt_dec _ d) as [L|L].
  - intros E. injection E as <-. split; [left; auto|exact L].
  - intros E. destruct (IH E). split; [right; auto|auto].
Qed.
Lemma look_first old d n : forall a i, look old d (seq a n) = Some i ->
  (a <= i < a + n)%nat /\ bottom old - old.[i + 1] - 1.0e-4 < d /\ forall j, (a <= j < i)%nat -> d <= bottom old - old.[j + 1] - 1.0e-4.
Proof.
  induction n as [|n IH]; intros a i; cbn [seq look]; [discriminate|]. destruct (Rlt_dec _ d) as [L|L].
  - intros E. injection E as <-. repeat split; try lia. exact L.
  - intros E. destruct (IH _ _ E) as [H1 [H2 H3]]. repeat split; try lia; auto.
    intros j Hj. destruct (Nat.eq_dec j a) as [->|]; [lra|]. apply H3. lia.
Qed.
Lemma look_ex old d n : forall a i, (a <= i < a + n)%nat -> bottom old - old.[i + 1] - 1.0e-4 < d -> exists j, look old d (seq a n) = Some j /\ (j <= i)%nat.
Proof.
  induction n as [|n IH]; intros a i Hi H; [lia|]. cbn [seq look]. destruct (Rlt_dec _ d) as [L|L].
  - exists a. split; [auto|lia].
  - apply IH; auto. destruct (Nat.eq_dec i a) as [->|]; [lra|lia].
Qed.
