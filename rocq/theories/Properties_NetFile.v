(** C98: the network in the file of a run. *)
From Coq Require Import ZArith String Ascii Lia Decimal DecimalString DecimalFacts DecimalNat List FinFun.
From Verif Require Import NetFileModel.
Import ListNotations.

(** ** The names of the groups *)
(** The number which a string of digits stands for, [acc] being in front. *)
Fixpoint value (acc : nat) (s : string) : option nat :=
  match s with
  | EmptyString => Some acc
  | String c r => if ((48 <=? nat_of_ascii c) && (nat_of_ascii c <=? 57))%nat%bool then value (10 * acc + (nat_of_ascii c - 48)) r else None
  end.
(** A number as one writes it: digits, at least one, and no zero in front of others. *)
Definition writes (s : string) (n : nat) : Prop := value 0 s = Some n /\ s <> ""%string /\ (forall r, s = String "0" r -> r = ""%string).
Lemma value_of d acc : value acc (NilEmpty.string_of_uint d) = Some (Nat.of_uint_acc d acc).
Proof. revert acc. induction d; intros acc; [reflexivity|..]; cbn [NilEmpty.string_of_uint Nat.of_uint_acc]; rewrite Nat.tail_mul_spec, <- IHd; cbn [value]; cbn [nat_of_ascii]; (match goal with |- context [nat_of_ascii ?c] => let v := eval vm_compute in (nat_of_ascii c) in change (nat_of_ascii c) with v end); cbn [Nat.leb andb Nat.sub]; f_equal; lia. Qed.
Lemma name_writes n : writes (makeGroupName n) n.
Proof.
  unfold writes, makeGroupName. pose proof (Unsigned.of_to n) as E. pose proof (Unsigned.to_of (Nat.to_uint n)) as F. rewrite E in F. unfold unorm in F.
  remember (Nat.to_uint n) as d eqn:Hd. clear Hd.
  assert (N : d <> Nil) by (intros ->; destruct (nzhead _); discriminate).
  split; [|split].
  - rewrite <- E. unfold Nat.of_uint. rewrite <- value_of. destruct d; [contradiction|reflexivity..].
  - destruct d; [contradiction|cbn; discriminate..].
  - intros r H. destruct d; try contradiction; cbn in H; try discriminate. injection H as <-.
    destruct (nzhead (D0 d)) eqn:Z; try discriminate F.
    + injection F as F. subst d. reflexivity.
    + exfalso. apply (nzhead_nonzero (D0 d) u). exact Z.
Qed.
Lemma writes_inj s n m : writes s n -> writes s m -> n = m.
Proof. intros (A & _) (B & _). congruence. Qed.
Lemma parsed s : forall acc n, value acc s = Some n -> exists d, NilEmpty.string_of_uint d = s /\ Nat.of_uint_acc d acc = n.
Proof.
  induction s as [|c s IH]; intros acc n H; cbn [value] in H.
  - injection H as <-. exists Nil. split; reflexivity.
  - destruct (Nat.leb_spec 48 (nat_of_ascii c)); cbn [andb] in H; [|discriminate]. destruct (Nat.leb_spec (nat_of_ascii c) 57); [|discriminate].
    apply IH in H. destruct H as (d & A & B).
    assert (Q : exists k, (k < 10)%nat /\ nat_of_ascii c = (48 + k)%nat) by (exists (nat_of_ascii c - 48)%nat; lia). destruct Q as (k & K & Q).
    pose proof (ascii_nat_embedding c) as C. rewrite Q in B, C. replace (48 + k - 48)%nat with k in B by lia. subst s c n.
    destruct k as [|k]; [exists (D0 d); split; [reflexivity|cbn [Nat.of_uint_acc]; rewrite Nat.tail_mul_spec; f_equal; lia]|].
    destruct k as [|k]; [exists (D1 d); split; [reflexivity|cbn [Nat.of_uint_acc]; rewrite Nat.tail_mul_spec; f_equal; lia]|].
    destruct k as [|k]; [exists (D2 d); split; [reflexivity|cbn [Nat.of_uint_acc]; rewrite Nat.tail_mul_spec; f_equal; lia]|].
    destruct k as [|k]; [exists (D3 d); split; [reflexivity|cbn [Nat.of_uint_acc]; rewrite Nat.tail_mul_spec; f_equal; lia]|].
    destruct k as [|k]; [exists (D4 d); split; [reflexivity|cbn [Nat.of_uint_acc]; rewrite Nat.tail_mul_spec; f_equal; lia]|].
    destruct k as [|k]; [exists (D5 d); split; [reflexivity|cbn [Nat.of_uint_acc]; rewrite Nat.tail_mul_spec; f_equal; lia]|].
    destruct k as [|k]; [exists (D6 d); split; [reflexivity|cbn [Nat.of_uint_acc]; rewrite Nat.tail_mul_spec; f_equal; lia]|].
    destruct k as [|k]; [exists (D7 d); split; [reflexivity|cbn [Nat.of_uint_acc]; rewrite Nat.tail_mul_spec; f_equal; lia]|].
    destruct k as [|k]; [exists (D8 d); split; [reflexivity|cbn [Nat.of_uint_acc]; rewrite Nat.tail_mul_spec; f_equal; lia]|].
    destruct k as [|k]; [exists (D9 d); split; [reflexivity|cbn [Nat.of_uint_acc]; rewrite Nat.tail_mul_spec; f_equal; lia]|].
    lia.
Qed.
Lemma writes_name s n : writes s n -> s = makeGroupName n.
Proof.
  intros (A & B & C). apply parsed in A. destruct A as (d & <- & A). assert (E : Nat.of_uint d = n) by exact A. subst n.
  unfold makeGroupName. change (Nat.of_uint_acc d 0) with (Nat.of_uint d). rewrite Unsigned.to_of. unfold unorm.
  destruct d; try reflexivity; [contradiction|]. cbn in C. specialize (C _ eq_refl). destruct d; try discriminate. reflexivity.
Qed.
Lemma name_inj n m : makeGroupName n = makeGroupName m -> n = m.
Proof. intros H. apply (writes_inj (makeGroupName n)); [apply name_writes|rewrite H; apply name_writes]. Qed.

(** ** The labels *)
Definition named (s : species) : string :=
  match s with He => "He" | D => "D" | T => "T" | V => "V" | I => "I" | Xe => "Xe" | Basal => "Basal" | Void => "Void" | Faulted => "Faulted" | Perfect => "Perfect" | Frank => "Frank" end.
Lemma labels n : getPhaseSpace n = map named (speciesRange n).
Proof. destruct n; reflexivity. Qed.
Lemma named_inj s t : named s = named t -> s = t.
Proof. destruct s, t; intros H; try reflexivity; discriminate H. Qed.
Lemma NoDup_range n : NoDup (speciesRange n).
Proof. destruct n; cbn; repeat constructor; cbn; intuition discriminate. Qed.

(** ** The groups *)
Section READ.
Variable Value : Type.
Notation cluster := (cluster Value).
(** A region as the network uses it: nonempty in every direction, with amounts which fit. *)
Definition proper (c : cluster) : Prop := Forall (fun lh => 0 <= fst lh < snd lh /\ snd lh <= 2 ^ 31)%Z (region c).
(** Amounts which fit into the unsigned numbers of the network. *)
Definition fits (c : cluster) : Prop := Forall (fun lh => 0 <= fst lh < snd lh /\ snd lh < 2 ^ 32)%Z (region c).
(** A composition (one amount per species) belongs to a region, whose limits are excluded. *)
Definition inside (x : list Z) (r : list (Z * Z)) : Prop := Forall2 (fun a lh => fst lh <= a < snd lh)%Z x r.
(** What a reader of the file makes of the numbers: first and last amount of the species, species by species. *)
Fixpoint between (x b : list Z) : Prop :=
  match x, b with
  | [], [] => True
  | a :: x', lo :: last :: b' => (lo <= a <= last)%Z /\ between x' b'
  | _, _ => False
  end.

Lemma stored_bounds r : Forall (fun lh => 0 <= fst lh < snd lh /\ snd lh <= 2 ^ 31)%Z r ->
  map stored (boundVector r) = flat_map (fun lh => [fst lh; snd lh - 1]%Z) r.
Proof.
  induction 1 as [|[lo hi] r [H H'] _ IH]; [reflexivity|]. unfold boundVector in *. cbn [flat_map map app fst snd] in *. rewrite IH.
  rewrite Z.mod_small by lia. unfold stored. destruct (Z.ltb_spec lo (2 ^ 31)), (Z.ltb_spec (hi - 1) (2 ^ 31)); try lia. reflexivity.
Qed.
Lemma loaded_stored z : (0 <= z < 2 ^ 32)%Z -> loaded (stored z) = z.
Proof.
  intros H. unfold loaded, stored. destruct (Z.ltb_spec z (2 ^ 31)); [apply Z.mod_small; lia|].
  replace (z - 2 ^ 32)%Z with (z + (-1) * 2 ^ 32)%Z by lia. rewrite Z.mod_add by lia. apply Z.mod_small. lia.
Qed.
Lemma loaded_bounds r : Forall (fun lh => 0 <= fst lh < snd lh /\ snd lh < 2 ^ 32)%Z r ->
  map loaded (map stored (boundVector r)) = flat_map (fun lh => [fst lh; snd lh - 1]%Z) r.
Proof.
  induction 1 as [|[lo hi] r [H H'] _ IH]; [reflexivity|]. unfold boundVector in *. cbn [flat_map map app fst snd] in *. rewrite IH.
  rewrite (Z.mod_small (hi - 1)) by lia. rewrite !loaded_stored by lia. reflexivity.
Qed.
Lemma between_inside x r : between x (flat_map (fun lh => [fst lh; snd lh - 1]%Z) r) <-> inside x r.
Proof.
  revert x. induction r as [|[lo hi] r IH]; intros [|a x]; cbn [flat_map app between fst snd]; unfold inside in *.
  - split; constructor.
  - split; [tauto|intros H; inversion H].
  - split; [tauto|intros H; inversion H].
  - rewrite IH. split; [intros [A B]; constructor; [cbn; lia|exact B]|intros H; inversion H as [|? ? ? ? P Q]; subst; cbn in P; split; [lia|exact Q]].
Qed.

Lemma find_app (l m : list (string * group Value)) s : find (l ++ m) s = match find l s with Some g => Some g | None => find m s end.
Proof. induction l as [|[x g] l IH]; [reflexivity|]. cbn [app find]. destruct (string_dec x s); [reflexivity|exact IH]. Qed.
Lemma added (cs : list cluster) i l : (forall j, (i <= j)%nat -> find l (makeGroupName j) = None) ->
  exists l', addClusters i cs l = Some l' /\ (forall k c, nth_error cs k = Some c -> find l' (makeGroupName (i + k)) = Some (clusterGroup c)) /\
  (forall s g, find l s = Some g -> find l' s = Some g) /\ map fst l' = map fst l ++ map makeGroupName (seq i (length cs)).
Proof.
  revert i l. induction cs as [|c cs IH]; intros i l H; cbn [addClusters length seq map].
  - exists l. split; [reflexivity|]. split; [intros [|k] ? E; discriminate|]. split; [auto|rewrite app_nil_r; reflexivity].
  - rewrite (H i) by lia. destruct (IH (S i) (l ++ [(makeGroupName i, clusterGroup c)])) as (l' & A & B & C & E).
    { intros j L. rewrite find_app, (H j) by lia. cbn [find]. destruct (string_dec _ _) as [Q|]; [apply name_inj in Q; lia|reflexivity]. }
    exists l'. split; [exact A|]. split; [|split].
    + intros [|k] c' N; cbn in N.
      * injection N as <-. rewrite Nat.add_0_r. apply C. rewrite find_app, (H i) by lia. cbn [find]. destruct (string_dec _ _); [reflexivity|contradiction].
      * replace (i + S k)%nat with (S i + k)%nat by lia. apply B. exact N.
    + intros s g F. apply C. rewrite find_app, F. reflexivity.
    + rewrite E, map_app, <- app_assoc. reflexivity.
Qed.
Lemma find_writes (l : list (string * group Value)) s : find l s <> None <-> In s (map fst l).
Proof. induction l as [|[x g] l IH]; cbn [find map In fst]; [tauto|]. destruct (string_dec x s); [split; [auto|discriminate]|rewrite IH; tauto]. Qed.

(** For any network: the file can be written; it says how many clusters there are and names the species; there is exactly one group per cluster, whose name is its number;
    the numbers in the group are those of the cluster; and a composition belongs to the cluster exactly if it lies between the bounds, both included. *)
Theorem c98_written n (cs : list cluster) : Forall proper cs ->
  exists g, writeNetwork n cs = Some g /\ readNetworkSize g = length cs /\ phaseSpace g = map named (speciesRange n) /\ NoDup (map fst (groups g)) /\
  (forall s, In s (map fst (groups g)) <-> exists i, (i < length cs)%nat /\ writes s i) /\
  (forall i c s, nth_error cs i = Some c -> In s (map fst (groups g)) -> writes s i ->
     exists e, In (s, e) (groups g) /\ gformation e = formation c /\ gmigration e = migration c /\ gfactor e = factor c /\ (forall x, between x (gbounds e) <-> inside x (region c))).
Proof.
  intros P. destruct (added cs 0 []) as (l & A & B & _ & E); [reflexivity|]. cbn [map app] in E.
  exists (NetworkGroup (getPhaseSpace n) (length cs) l). unfold writeNetwork. rewrite A. cbn [readNetworkSize totalSize phaseSpace groups].
  assert (U : forall s i, In s (map fst l) -> writes s i -> s = makeGroupName i /\ (i < length cs)%nat).
  { intros s i H W. rewrite E in H. apply in_map_iff in H. destruct H as (k & <- & K). apply in_seq in K. assert (k = i) by (apply (writes_inj (makeGroupName k)); [apply name_writes|exact W]). subst k. split; [reflexivity|lia]. }
  split; [reflexivity|]. split; [reflexivity|]. split; [apply labels|]. split; [|split].
  - rewrite E. apply FinFun.Injective_map_NoDup; [intros a b; apply name_inj|apply seq_NoDup].
  - intros s. split.
    + intros H. pose proof H as H'. rewrite E in H'. apply in_map_iff in H'. destruct H' as (k & <- & K). apply in_seq in K. exists k. split; [lia|apply name_writes].
    + intros (i & L & W). rewrite E. apply in_map_iff. exists i. split; [|apply in_seq; lia].
      symmetry. apply writes_name. exact W.
  - intros i c s N H W. destruct (U s i H W) as [-> L]. specialize (B i c N). cbn [Nat.add] in B. exists (clusterGroup c).
    assert (G : forall s' (g : group Value) m, find m s' = Some g -> In (s', g) m).
    { intros s' g m. induction m as [|[y h] m IHm]; cbn [find]; [discriminate|]. destruct (string_dec y s') as [->|]; [intros Q; injection Q as ->; left; reflexivity|intros Q; right; auto]. }
    split; [apply G; exact B|]. split; [reflexivity|]. split; [reflexivity|]. split; [reflexivity|]. intros x. cbn [clusterGroup gbounds].
    rewrite Forall_forall in P. pose proof (stored_bounds (region c) (P c (nth_error_In _ _ N))) as S. rewrite S. apply between_inside.
Qed.
(** The reading functions give back the same numbers (the amounts may use all 32 bits), and fail beyond the last cluster. *)
Theorem c98_read n (cs : list cluster) g : Forall fits cs -> writeNetwork n cs = Some g ->
  (forall i c, nth_error cs i = Some c -> exists b, readCluster g i = Some (b, formation c, migration c, factor c) /\ forall x, between x b <-> inside x (region c)) /\
  (forall i, (length cs <= i)%nat -> readCluster g i = None).
Proof.
  intros P W. destruct (added cs 0 []) as (l & A & B & _ & E); [reflexivity|]. cbn [map app] in E. unfold writeNetwork in W. rewrite A in W. injection W as <-. unfold readCluster. cbn [groups]. split.
  - intros i c N. specialize (B i c N). cbn [Nat.add] in B. rewrite B. eexists. split; [reflexivity|]. intros x. cbn [clusterGroup gbounds].
    rewrite Forall_forall in P. rewrite (loaded_bounds (region c) (P c (nth_error_In _ _ N))). apply between_inside.
  - intros i L. destruct (find l (makeGroupName i)) eqn:F; [|reflexivity]. exfalso.
    assert (H : In (makeGroupName i) (map fst l)) by (apply find_writes; rewrite F; discriminate). rewrite E in H. apply in_map_iff in H. destruct H as (k & Q & K). apply name_inj in Q. apply in_seq in K. lia.
Qed.
(** So the file says of any composition to which cluster it belongs: if the regions of the network do not overlap, exactly one group contains a composition of the network. *)
Theorem c98_which n (cs : list cluster) g x : Forall proper cs -> writeNetwork n cs = Some g ->
  (forall i j a b, nth_error cs i = Some a -> nth_error cs j = Some b -> inside x (region a) -> inside x (region b) -> i = j) ->
  (exists c, In c cs /\ inside x (region c)) ->
  exists s e, In (s, e) (groups g) /\ between x (gbounds e) /\ forall s' e', In (s', e') (groups g) -> between x (gbounds e') -> s' = s.
Proof.
  intros P W O (c & C & X). destruct (c98_written n cs P) as (g' & W' & _ & _ & ND & Names & Each). rewrite W in W'. injection W' as <-.
  apply In_nth_error in C. destruct C as (i & N). assert (L : (i < length cs)%nat) by (apply nth_error_Some; rewrite N; discriminate).
  assert (HN : In (makeGroupName i) (map fst (groups g))) by (apply Names; exists i; split; [exact L|apply name_writes]).
  destruct (Each i c _ N HN (name_writes i)) as (e & I1 & _ & _ & _ & Be). exists (makeGroupName i), e. split; [exact I1|]. split; [apply Be; exact X|].
  intros s' e' I2 B2. assert (H' : In s' (map fst (groups g))) by (apply (in_map fst) in I2; exact I2). destruct (proj1 (Names s') H') as (j & Lj & Wj).
  destruct (nth_error cs j) as [b|] eqn:Nj; [|apply nth_error_None in Nj; lia].
  destruct (Each j b s' Nj H' Wj) as (e2 & I3 & _ & _ & _ & Be2).
  assert (e2 = e').
  { clear - ND I2 I3. induction (groups g) as [|[y h] m IHm]; [contradiction|]. cbn [map fst] in ND. inversion ND as [|? ? Q R]; subst.
    destruct I2 as [I2|I2], I3 as [I3|I3]; try congruence; [injection I2 as -> ->; exfalso; apply Q; apply (in_map fst) in I3; exact I3|injection I3 as -> ->; exfalso; apply Q; apply (in_map fst) in I2; exact I2|auto]. }
  subst e2. rewrite Be2 in B2. rewrite (O i j c b N Nj X B2). apply writes_name. exact Wj.
Qed.
End READ.
(** The labels are names of different species, so that a reader can find the bounds of any of them. *)
Theorem c98_labels n : NoDup (getPhaseSpace n) /\ forall k s, nth_error (speciesRange n) k = Some s -> nth_error (getPhaseSpace n) k = Some (named s).
Proof.
  rewrite labels. split.
  - apply FinFun.Injective_map_NoDup; [intros a b; apply named_inj|apply NoDup_range].
  - intros k s H. apply map_nth_error. exact H.
Qed.
Print Assumptions c98_written.
Print Assumptions c98_read.
Print Assumptions c98_which.
Print Assumptions c98_labels.
(** A network of twelve clusters: single helium, and groups of helium bubbles. *)
Example c98_ok : let cs := Cluster [(1, 2); (0, 1); (0, 1)]%Z 1%nat 2%nat 3%nat :: map (fun k => Cluster [(0, 10); (Z.of_nat k, Z.of_nat k + 1); (0, 1)]%Z k k 0%nat) (seq 1 11) in
  Forall (@proper nat) cs /\ Forall (@fits nat) cs /\
  match writeNetwork Fe cs with
  | Some g => readNetworkSize g = 12%nat /\ phaseSpace g = ["He"; "V"; "I"]%string /\ find (groups g) "11" = Some (Group [0; 9; 11; 11; 0; 0]%Z 11%nat 11%nat 0%nat) /\ find (groups g) "12" = None /\ find (groups g) "011" = None /\
      readCluster g 0 = Some ([1; 1; 0; 0; 0; 0]%Z, 1%nat, 2%nat, 3%nat)
  | None => False
  end /\ inside [9; 11; 0]%Z [(0, 10); (11, 12); (0, 1)]%Z.
Proof. cbv zeta. split; [repeat constructor; cbn; lia|]. split; [repeat constructor; cbn; lia|]. split; [vm_compute; repeat split|repeat constructor; cbn; lia]. Qed.
