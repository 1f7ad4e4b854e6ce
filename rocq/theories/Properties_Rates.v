(** C66: the reaction file of the NE network. *)
From Coq Require Import ZArith Reals List Bool Lia Lra.
From Verif Require Import Sums EnergyModel RatesModel.
From Verif Require Properties_Energy SinkModel Properties_Sink.
Import ListNotations.
Open Scope R_scope.

(** ** What a file says. A state has an enthalpy, an entropy (in units of k), a prefactor and a migration energy. *)
Record state := State { enthalpy : R; entropy : R; prefactor : R; barrier : R }.
Record description := Desc { comp3 : Z * Z * Z; own : state; linked : list state }.
Definition all (c : description) : list state := own c :: linked c.
Inductive statement :=
| Sink (c : Z * Z * Z) (coef : R)
| Pair (a b p : Z * Z * Z) (flag : R).
(** The documented format. *)
Definition numbers (c : Z * Z * Z) : line := let '(x, v, i) := c in [IZR x; IZR v; IZR i].
Definition fields (s : state) : line := [enthalpy s; entropy s; prefactor s; barrier s].
Definition clusterLine (c : description) : line := numbers (comp3 c) ++ concat (map fields (all c)).
Definition reactionLine (r : statement) : line :=
  match r with Sink c k => numbers c ++ [k] | Pair a b p f => numbers a ++ numbers b ++ numbers p ++ [f] end.
Definition file (cs : list description) (rs : list statement) : list fline :=
  map (fun c => Toks (clusterLine c)) cs ++ Marker :: map (fun r => Toks (reactionLine r)) rs.
(** ** What it means. *)
Definition freeEnergy (T : R) (s : state) : R := enthalpy s - kB * T * entropy s.
Definition mobility (T : R) (s : state) : R := prefactor s * exp (- barrier s / (kB * T)).
Definition ground (T : R) (c : description) (g : R) : Prop :=
  (exists s, In s (all c) /\ freeEnergy T s = g) /\ forall s, In s (all c) -> g <= freeEnergy T s.
Definition boltz (T g : R) (s : state) : R := exp (- (freeEnergy T s - g) / (kB * T)).
Definition partition (T g : R) (c : description) : R := Rsum (all c) (boltz T g).
Definition effective (T g : R) (c : description) : R := Rsum (all c) (fun s => mobility T s * boltz T g s).

Lemma assoc_app m k v id : assoc (m ++ [(k, v)]) id = match assoc m id with Some x => Some x | None => if (k =? id)%nat then Some v else None end.
Proof.
  unfold assoc. induction m as [|q m IH]; cbn [app find].
  - cbn [fst]. destruct (k =? id)%nat; reflexivity.
  - destruct (fst q =? id)%nat; [reflexivity|exact IH].
Qed.
(** ** Counting *)
Lemma concat_cons c : clusterLine c <> [].
Proof. unfold clusterLine. destruct (comp3 c) as [[x v] i]. discriminate. Qed.
Lemma reactionLine_cons r : reactionLine r <> [].
Proof. destruct r as [[[x v] i] k|[[x v] i] b p f]; discriminate. Qed.
Lemma clusterLoop_file l cs q : l <> [] -> clusterLoop l (map (fun c => Toks (clusterLine c)) cs ++ Marker :: q) = (l :: map clusterLine cs, q).
Proof.
  revert l. induction cs as [|c cs IH]; intros l Hl; cbn [map app clusterLoop]; destruct l as [|x l]; try contradiction; [reflexivity|].
  rewrite IH by apply concat_cons. reflexivity.
Qed.
Lemma reactionLoop_file rs : reactionLoop (map (fun r => Toks (reactionLine r)) rs) = map reactionLine rs.
Proof.
  induction rs as [|r rs IH]; [reflexivity|]. cbn [map reactionLoop tokens]. pose proof (reactionLine_cons r).
  destruct (reactionLine r) eqn:E; [contradiction|]. rewrite IH. reflexivity.
Qed.
Lemma sections_file c cs rs : sections (file (c :: cs) rs) = (map clusterLine (c :: cs), map reactionLine rs).
Proof. unfold file, sections. cbn [map app tokens]. rewrite clusterLoop_file by apply concat_cons. rewrite reactionLoop_file. reflexivity. Qed.
(** For any file, readClusters counts the lines which readReactions reads, so that the tables have the right size. *)
Lemma count_loop cur rest : countLoop cur rest = length (fst (clusterLoop cur rest)).
Proof.
  revert cur. induction rest as [|f rest IH]; intros [|x cur]; try reflexivity.
  destruct f as [|l]; [reflexivity|]. cbn [countLoop clusterLoop]. rewrite IH. destruct (clusterLoop l rest). reflexivity.
Qed.
Theorem c66_count : forall T cluster f res, readReactions T cluster f = Some res ->
  readClusters f = length (cEntries (rClusters res)) /\
  (forall id m, assoc (cMap (rClusters res)) id = Some m -> (m < readClusters f)%nat).
Proof.
  intros T cluster f res. unfold readReactions. destruct (Req_EM_T T 0); [discriminate|].
  assert (C : readClusters f = length (fst (sections f))).
  { destruct f as [|x r]; [reflexivity|]. cbn [readClusters sections]. rewrite count_loop. destruct (clusterLoop (tokens x) r). reflexivity. }
  destruct (sections f) as [cs rs]. cbn [fst] in C. unfold readLines. destruct (addClusters T cluster cs noCluster) as [s|] eqn:ES; [|discriminate].
  destruct (reactions _ _ _ _ _); [|discriminate]. destruct (formation _ _ _); [|discriminate]. destruct (formation _ _ _); [|discriminate].
  destruct (formation _ _ _); [|discriminate]. destruct (formation _ _ _); [|discriminate]. intros [= <-]. cbn [rClusters]. rewrite C. clear - ES.
  assert (G : forall cs s0 s, addClusters T cluster cs s0 = Some s -> (forall id m, assoc (cMap s0) id = Some m -> (m < length (cEntries s0))%nat) ->
    length (cEntries s) = (length (cEntries s0) + length cs)%nat /\ (forall id m, assoc (cMap s) id = Some m -> (m < length (cEntries s))%nat)).
  { clear. induction cs as [|l cs IH]; intros s0 s E H0; cbn [addClusters] in E.
    - injection E as <-. split; [cbn; lia|exact H0].
    - destruct (addCluster T cluster l s0) as [s1|] eqn:E1; [|discriminate]. unfold addCluster in E1. destruct (compAt l 0); [|discriminate].
      destruct (cluster p) as [id|]; [|discriminate]. destruct (entryOf T l) as [e|]; [|discriminate]. injection E1 as <-.
      apply IH in E; cbn [cEntries cMap] in *; rewrite ?app_length in *; cbn [length] in *; [split; [lia|exact (proj2 E)]|].
      intros id' m. destruct (assoc (cMap s0) id) eqn:EA.
      + intros H. apply H0 in H. lia.
      + rewrite assoc_app. destruct (assoc (cMap s0) id') eqn:EB; [intros [= <-]; apply H0 in EB; lia|]. destruct (id =? id')%nat; intros [= <-]; lia. }
  destruct (G cs noCluster s ES) as [G1 G2]; [discriminate|]. cbn in G1. rewrite G1. split; [reflexivity|]. intros id m H. rewrite <- G1. eauto.
Qed.
Print Assumptions c66_count.

(** ** Reading *)
Section READING.
Variable T : R.
Variable cluster : Z * Z * Z -> option nat.
Definition positive3 (c : Z * Z * Z) : Prop := let '(x, v, i) := c in (0 <= x /\ 0 <= v /\ 0 <= i)%Z.
Lemma Int_part_IZR z : Int_part (IZR z) = z.
Proof. unfold Int_part. rewrite <- (tech_up (IZR z) (z + 1)); [lia|rewrite plus_IZR; lra|rewrite plus_IZR; lra]. Qed.
Lemma unsigned_IZR z : (0 <= z)%Z -> unsigned (IZR z) = Some z.
Proof. intros H. unfold unsigned. apply IZR_le in H. destruct (Rle_dec 0 (IZR z)); [|contradiction]. rewrite Int_part_IZR. reflexivity. Qed.
Lemma compAt_numbers c l i q : positive3 c -> skipn i l = numbers c ++ q -> compAt l i = Some c.
Proof.
  destruct c as [[x v] j]. intros (H1 & H2 & H3) E. unfold compAt, numbers in *.
  assert (N : forall k, nth_error l (i + k) = nth_error (skipn i l) k).
  { clear. intros k. revert l. induction i as [|i IH]; intros l; [reflexivity|]. destruct l; [destruct k; reflexivity|]. cbn. apply IH. }
  replace (nth_error l i) with (nth_error l (i + 0)) by (f_equal; lia). rewrite !N, E. cbn. rewrite !unsigned_IZR by assumption. reflexivity.
Qed.
Definition valued (s : state) : R * R := (mobility T s, freeEnergy T s).
Lemma states_fields ss : states T (concat (map fields ss)) = Some (map valued ss).
Proof. induction ss as [|s ss IH]; [reflexivity|]. cbn [map concat fields app states]. rewrite IH. reflexivity. Qed.
Lemma smallest_spec ss k g id : let r := smallest k g id ss in
  fst r <= g /\ (forall s, In s ss -> fst r <= snd s) /\ ((fst r = g /\ snd r = id) \/ exists n s, nth_error ss n = Some s /\ snd s = fst r /\ snd r = (k + n)%nat).
Proof.
  revert k g id. induction ss as [|[d g'] ss IH]; intros k g id; cbn [smallest].
  - cbn. split; [lra|]. split; [tauto|auto].
  - destruct (Rlt_dec g' g) as [H|H]; [specialize (IH (S k) g' k)|specialize (IH (S k) g id)]; cbv zeta in *; destruct IH as (I1 & I2 & I3).
    + split; [lra|]. split; [intros s [<-|F]; [exact I1|auto]|]. right. destruct I3 as [[E1 E2]|(n & s & E1 & E2 & E3)].
      * exists 0%nat, (d, g'). split; [reflexivity|]. split; [cbn; auto|rewrite E2; lia].
      * exists (S n), s. split; [exact E1|]. split; [exact E2|rewrite E3; lia].
    + split; [lra|]. split; [intros s [<-|F]; [cbn; lra|auto]|]. destruct I3 as [E|(n & s & E1 & E2 & E3)]; [auto|]. right.
      exists (S n), s. split; [exact E1|]. split; [exact E2|rewrite E3; lia].
Qed.
Definition isEntry (c : description) (e : entry) : Prop :=
  eStates e = map valued (all c) /\ ground T c (eG e) /\ exists s, nth_error (all c) (eBest e) = Some s /\ freeEnergy T s = eG e.
Lemma entryOf_line c : exists e, entryOf T (clusterLine c) = Some e /\ isEntry c e.
Proof.
  unfold entryOf. assert (E : skipn 3 (clusterLine c) = concat (map fields (all c))) by (unfold clusterLine; destruct (comp3 c) as [[x v] i]; reflexivity).
  rewrite E, states_fields. unfold all. cbn [map valued].
  destruct (smallest 1 (freeEnergy T (own c)) 0 (map valued (linked c))) as [g b] eqn:ES. eexists. split; [reflexivity|].
  pose proof (smallest_spec (map valued (linked c)) 1 (freeEnergy T (own c)) 0) as S. rewrite ES in S. cbv zeta in S. cbn [fst snd] in S. destruct S as (S1 & S2 & S3).
  assert (ALL : forall s, In s (all c) -> g <= freeEnergy T s).
  { intros s [<-|H]; [exact S1|]. apply (S2 (valued s)). apply in_map. exact H. }
  assert (B : exists s, nth_error (all c) b = Some s /\ freeEnergy T s = g).
  { destruct S3 as [[-> ->]|(n & s & E1 & E2 & ->)]; [exists (own c); split; reflexivity|]. rewrite nth_error_map in E1. destruct (nth_error (linked c) n) as [s'|] eqn:EN; [|discriminate].
    injection E1 as <-. exists s'. split; [exact EN|exact E2]. }
  split; [reflexivity|]. cbn [eG eBest]. split; [|exact B]. split; [|exact ALL]. destruct B as (s & B1 & B2). exists s. split; [eapply nth_error_In; eauto|exact B2].
Qed.
Lemma weight_boltz e s : weight T e (valued s) = boltz T (eG e) s.
Proof. unfold weight, boltz, valued. cbn [snd]. f_equal. unfold Rdiv. ring. Qed.
Lemma Rsum_map' {A B} (f : A -> B) (l : list A) (g : B -> R) : Rsum (map f l) g = Rsum l (fun x => g (f x)).
Proof. induction l as [|x l IH]; cbn; [reflexivity|]. unfold Rsum in *. cbn. rewrite IH. reflexivity. Qed.
Lemma diffusivity_effective c e : isEntry c e -> diffusivity T e = effective T (eG e) c.
Proof. intros (E & _). unfold diffusivity, effective. rewrite E, Rsum_map'. apply Rsum_ext. intros s _. rewrite weight_boltz. reflexivity. Qed.
Lemma ground_unique c g g' : ground T c g -> ground T c g' -> g = g'.
Proof. intros [(s & H1 & H2) H3] [(s' & H1' & H2') H3']. pose proof (H3 _ H1'). pose proof (H3' _ H1). lra. Qed.

(** *** Clusters *)
Definition known (c : description) : Prop := positive3 (comp3 c) /\ cluster (comp3 c) <> None.
Definition ids (cs : list description) : list (option nat) := map (fun c => cluster (comp3 c)) cs.
Definition represents (cs : list description) (s : clusters) : Prop :=
  Forall2 isEntry cs (cEntries s) /\
  (forall n c id, nth_error cs n = Some c -> cluster (comp3 c) = Some id -> assoc (cMap s) id = Some n) /\
  (forall id m, assoc (cMap s) id = Some m -> In (Some id) (ids cs)) /\
  (forall c id g, In c cs -> cluster (comp3 c) = Some id -> ground T c g -> cFactor s id = Some (effective T g c)).
Lemma addClusters_represents cs : forall pre s, represents pre s -> Forall known cs -> NoDup (ids (pre ++ cs)) ->
  exists s', addClusters T cluster (map clusterLine cs) s = Some s' /\ represents (pre ++ cs) s'.
Proof.
  induction cs as [|c cs IH]; intros pre s HR HK HN; [exists s; rewrite app_nil_r; auto|].
  inversion HK as [|? ? [HP HC] HK']; subst. cbn [map addClusters]. unfold addCluster.
  rewrite (compAt_numbers (comp3 c) (clusterLine c) 0 (concat (map fields (all c))) HP eq_refl).
  destruct (cluster (comp3 c)) as [id|] eqn:EC; [|contradiction]. destruct (entryOf_line c) as (e & EE & HE). rewrite EE. cbv zeta.
  destruct HR as (R1 & R2 & R3 & R4). assert (LE : length (cEntries s) = length pre) by (symmetry; clear - R1; induction R1; cbn; congruence).
  assert (FR : ~ In (Some id) (ids pre)).
  { intros F. unfold ids in HN. rewrite map_app in HN. cbn [map] in HN. rewrite EC in HN. apply NoDup_remove_2 in HN. apply HN. apply in_app_iff. left. exact F. }
  destruct (assoc (cMap s) id) as [m|] eqn:EA; [exfalso; eauto|].
  replace (pre ++ c :: cs) with ((pre ++ [c]) ++ cs) in * by (rewrite <- app_assoc; reflexivity). apply IH; [|exact HK'|exact HN]. split; [|split; [|split]]; cbn [cEntries cMap cFactor].
  - apply Forall2_app; [exact R1|]. constructor; [exact HE|constructor].
  - intros n c' id' Hn Hc. rewrite assoc_app. destruct (Nat.lt_ge_cases n (length pre)) as [L|L].
    + rewrite nth_error_app1 in Hn by exact L. rewrite (R2 _ _ _ Hn Hc). reflexivity.
    + rewrite nth_error_app2 in Hn by exact L. destruct (n - length pre)%nat as [|k] eqn:EN; [|destruct k; discriminate]. cbn in Hn. injection Hn as <-. rewrite EC in Hc. injection Hc as <-.
      rewrite EA, Nat.eqb_refl. f_equal. lia.
  - intros id' m. rewrite assoc_app. unfold ids. rewrite map_app, in_app_iff. cbn [map]. rewrite EC. destruct (assoc (cMap s) id') eqn:EB; [intros _; left; eapply R3; eauto|].
    destruct (Nat.eqb_spec id id') as [->|]; [intros _; right; left; reflexivity|discriminate].
  - intros c' id' g Hin Hc Hg. apply in_app_iff in Hin as [Hin|[<-|[]]].
    + destruct (Nat.eqb_spec id' id) as [->|]; [|eauto]. exfalso. apply FR. unfold ids. apply in_map_iff. eauto.
    + rewrite EC in Hc. injection Hc as <-. rewrite Nat.eqb_refl. f_equal. rewrite (diffusivity_effective c e HE). f_equal. apply (ground_unique c); [apply HE|exact Hg].
Qed.

(** *** Reactions *)
Lemma Forall2_nth {A B} (P : A -> B -> Prop) l l' n x : Forall2 P l l' -> nth_error l n = Some x -> exists y, nth_error l' n = Some y /\ P x y.
Proof. intros H. revert n. induction H as [|a b l l' H H2 IH]; intros [|n] E; cbn in E; try discriminate; [injection E as <-; exists b; auto|apply IH; exact E]. Qed.
Variable cs : list description.
Variable s : clusters.
Hypothesis HR : represents cs s.
Hypothesis HK : Forall known cs.
Lemma mapped_nth n c : nth_error cs n = Some c -> mapped cluster s (comp3 c) = Some n.
Proof.
  intros H. unfold mapped. pose proof (nth_error_In _ _ H) as HI. rewrite Forall_forall in HK. destruct (HK _ HI) as [_ HC].
  destruct (cluster (comp3 c)) as [id|] eqn:EC; [|contradiction]. destruct HR as (_ & R2 & _). eauto.
Qed.
Lemma entry_nth n c : nth_error cs n = Some c -> exists e, entryAt s n = Some e /\ isEntry c e.
Proof. destruct HR as (R1 & _). intros H. eapply Forall2_nth; eauto. Qed.
Lemma entries_length : length (cEntries s) = length cs.
Proof. destruct HR as (R1 & _). clear - R1. induction R1; cbn; congruence. Qed.
Lemma forward_law a b ea eb : isEntry a ea -> isEntry b eb ->
  forward T ea eb = effective T (eG ea) a * partition T (eG eb) b + partition T (eG ea) a * effective T (eG eb) b.
Proof.
  intros (Ea & _) (Eb & _). unfold forward. rewrite Ea, Eb, Rsum_map'. unfold effective, partition. rewrite <- !Rsum_scal_r, <- Rsum_plus. apply Rsum_ext. intros x _.
  rewrite Rsum_map', weight_boltz. rewrite <- !Rsum_scal, <- Rsum_plus. apply Rsum_ext. intros y _. rewrite weight_boltz. cbn [fst valued]. ring.
Qed.
Lemma Rsum_const' {A} (l : list A) c : Rsum l (fun _ => c) = INR (length l) * c.
Proof. induction l as [|x l IH]; [cbn; ring|]. cbn [length]. rewrite S_INR. unfold Rsum in *. cbn [fold_right map]. rewrite IH. ring. Qed.
Lemma backward_law a b p ea eb ep : isEntry a ea -> isEntry b eb -> isEntry p ep ->
  backward T ea eb ep = (Rsum (all a) (mobility T) * INR (length (all b)) + INR (length (all a)) * Rsum (all b) (mobility T)) * partition T (eG ep) p.
Proof.
  intros (Ea & _) (Eb & _) (Ep & _). unfold backward. rewrite Ea, Eb, Ep, Rsum_map'. unfold partition. rewrite <- Rsum_const'. rewrite Rmult_plus_distr_r.
  rewrite (Rmult_comm _ (Rsum (all b) (fun _ => Rsum (all a) (mobility T)))) || idtac.
  transitivity (Rsum (all a) (fun x => (INR (length (all b)) * mobility T x + Rsum (all b) (mobility T)) * Rsum (all p) (boltz T (eG ep)))).
  - apply Rsum_ext. intros x _. rewrite Rsum_map'. rewrite <- Rsum_const', <- Rsum_plus, <- Rsum_scal_r. apply Rsum_ext. intros y _. rewrite Rsum_map'.
    rewrite <- Rsum_scal. apply Rsum_ext. intros z _. rewrite weight_boltz. cbn [fst valued]. reflexivity.
  - rewrite Rsum_scal_r, Rsum_plus, Rsum_scal, Rsum_const'. ring.
Qed.
Definition among (c : Z * Z * Z) : Prop := exists d, In d cs /\ comp3 d = c.
Definition sound (r : statement) : Prop :=
  match r with
  | Sink c _ => among c
  | Pair a b p _ => among a /\ among b /\ positive3 p /\ (cluster p = None \/ among p)
  end.
Lemma among_nth c : among c -> exists n d, nth_error cs n = Some d /\ comp3 d = c.
Proof. intros (d & HI & E). apply In_nth_error in HI as [n HI]. eauto. Qed.
Lemma among_positive c : among c -> positive3 c.
Proof. intros (d & HI & <-). rewrite Forall_forall in HK. apply HK. exact HI. Qed.
Lemma among_cluster c : among c -> cluster c <> None.
Proof. intros (d & HI & <-). rewrite Forall_forall in HK. apply HK. exact HI. Qed.
(** What one line does to the tables. *)
Inductive step : statement -> tables -> tables -> Prop :=
| stepSink n c k t e : nth_error cs n = Some c -> isEntry c e -> forall y,
    step (Sink (comp3 c) k) t (Tables (set2 (k0 t) n (length cs) (k * diffusivity T e)) (set2 (k1 t) n (length cs) y) (set2 (dG t) n (length cs) (- eG e)))
| stepOff n m a b p f t : nth_error cs n = Some a -> nth_error cs m = Some b -> Rabs f < 1 ->
    step (Pair (comp3 a) (comp3 b) p f) t (Tables (setBoth (k0 t) n m 0) (setBoth (k1 t) n m 0) (setBoth (dG t) n m 0))
| stepNone n m a b p f t ea eb : nth_error cs n = Some a -> nth_error cs m = Some b -> isEntry a ea -> isEntry b eb -> 1 <= Rabs f -> cluster p = None ->
    step (Pair (comp3 a) (comp3 b) p f) t (Tables (setBoth (k0 t) n m (forward T ea eb)) (k1 t) (setBoth (dG t) n m (- eG ea - eG eb)))
| stepProd n m q a b p f t ea eb ep : nth_error cs n = Some a -> nth_error cs m = Some b -> nth_error cs q = Some p -> isEntry a ea -> isEntry b eb -> isEntry p ep -> 1 <= Rabs f ->
    step (Pair (comp3 a) (comp3 b) (comp3 p) f) t
      (Tables (setBoth (k0 t) n m (forward T ea eb)) (setBoth (k1 t) n m (backward T ea eb ep)) (setBoth (dG t) n m (- eG ea - eG eb + eG ep))).
Lemma reaction_step r t : sound r -> exists t', reaction T cluster s (reactionLine r) t = Some t' /\ step r t t'.
Proof.
  intros H. destruct r as [c k|a b p f]; cbn [sound] in H.
  - pose proof (among_positive _ H) as HP. destruct (among_nth _ H) as (n & d & HN & <-).
    unfold reaction. cbn [reactionLine]. rewrite (compAt_numbers (comp3 d) _ 0 [k] HP eq_refl), (mapped_nth _ _ HN).
    assert (L : length (numbers (comp3 d) ++ [k]) = 4%nat) by (destruct (comp3 d) as [[x v] i]; reflexivity). rewrite L. cbn [Nat.eqb]. unfold sinkLine.
    replace (nth_error (numbers (comp3 d) ++ [k]) 3) with (Some k) by (destruct (comp3 d) as [[x v] i]; reflexivity).
    destruct (entry_nth _ _ HN) as (e & EE & HE). rewrite EE. pose proof HE as (ES & _ & (st & E1 & E2)). rewrite ES, nth_error_map, E1. cbn [option_map]. rewrite entries_length.
    eexists. split; [reflexivity|]. econstructor; eassumption.
  - destruct H as (Ha & Hb & Hp & Hc). pose proof (among_positive _ Ha) as PA. pose proof (among_positive _ Hb) as PB.
    destruct (among_nth _ Ha) as (n & da & HNa & <-). destruct (among_nth _ Hb) as (m & db & HNb & <-).
    unfold reaction. cbn [reactionLine]. rewrite (compAt_numbers (comp3 da) _ 0 (numbers (comp3 db) ++ numbers p ++ [f]) PA eq_refl), (mapped_nth _ _ HNa).
    assert (L : length (numbers (comp3 da) ++ numbers (comp3 db) ++ numbers p ++ [f]) = 10%nat) by (destruct (comp3 da) as [[x v] i], (comp3 db) as [[x' v'] i'], p as [[x'' v''] i'']; reflexivity).
    rewrite L. cbn [Nat.eqb]. unfold pairLine.
    rewrite (compAt_numbers (comp3 db) _ 3 (numbers p ++ [f]) PB) by (destruct (comp3 da) as [[x v] i]; reflexivity).
    rewrite (compAt_numbers p _ 6 [f] Hp) by (destruct (comp3 da) as [[x v] i], (comp3 db) as [[x' v'] i']; reflexivity).
    replace (nth_error (numbers (comp3 da) ++ numbers (comp3 db) ++ numbers p ++ [f]) 9) with (Some f) by (destruct (comp3 da) as [[x v] i], (comp3 db) as [[x' v'] i'], p as [[x'' v''] i'']; reflexivity).
    rewrite (mapped_nth _ _ HNb). unfold truncatedZero. destruct (Rlt_dec (Rabs f) 1) as [F|F].
    + eexists. split; [reflexivity|]. econstructor; eassumption.
    + destruct (entry_nth _ _ HNa) as (ea & EA & HEa). destruct (entry_nth _ _ HNb) as (eb & EB & HEb). rewrite EA, EB. cbv zeta. destruct (cluster p) as [id|] eqn:EP.
      * destruct Hc as [Hc|Hc]; [discriminate|]. destruct (among_nth _ Hc) as (q & dp & HNp & <-). pose proof (mapped_nth _ _ HNp) as HM. unfold mapped in HM. rewrite EP in HM. rewrite HM.
        destruct (entry_nth _ _ HNp) as (ep & EPp & HEp). rewrite EPp. eexists. split; [reflexivity|]. econstructor; try eassumption. lra.
      * eexists. split; [reflexivity|]. econstructor; try eassumption. lra.
Qed.
Inductive steps : list statement -> tables -> tables -> Prop :=
| stepsNil t : steps [] t t
| stepsCons r rs t t' t'' : step r t t' -> steps rs t' t'' -> steps (r :: rs) t t''.
Lemma reactions_steps rs t : Forall sound rs -> exists t', reactions T cluster s (map reactionLine rs) t = Some t' /\ steps rs t t'.
Proof.
  revert t. induction rs as [|r rs IH]; intros t H; [exists t; split; [reflexivity|constructor]|]. inversion H as [|? ? H1 H2]; subst.
  destruct (reaction_step r t H1) as (t1 & E1 & S1). destruct (IH t1 H2) as (t2 & E2 & S2). exists t2. cbn [map reactions]. rewrite E1. split; [exact E2|]. econstructor; eassumption.
Qed.
Lemma steps_app rs rs' t t' : steps (rs ++ rs') t t' -> exists u, steps rs t u /\ steps rs' u t'.
Proof.
  revert t. induction rs as [|r rs IH]; intros t H; [exists t; split; [constructor|exact H]|]. inversion H; subst. destruct (IH _ H5) as (u & U1 & U2). exists u. split; [econstructor; eassumption|exact U2].
Qed.
(** A statement about another pair leaves the entry of a pair alone. *)
Definition about (a b : Z * Z * Z) (r : statement) : Prop :=
  match r with Sink _ _ => False | Pair a' b' _ _ => (a' = a /\ b' = b) \/ (a' = b /\ b' = a) end.
Definition aboutSink (c : Z * Z * Z) (r : statement) : Prop := match r with Sink c' _ => c' = c | _ => False end.
Lemma set2_other f i j x i' j' : i <> i' \/ j <> j' -> set2 f i j x i' j' = f i' j'.
Proof. intros H. unfold set2. destruct (Nat.eqb_spec i' i), (Nat.eqb_spec j' j); cbn; try reflexivity. lia. Qed.
Lemma set2_same f i j x : set2 f i j x i j = x.
Proof. unfold set2. rewrite !Nat.eqb_refl. reflexivity. Qed.
Lemma setBoth_other f i j x i' j' : ~ (i = i' /\ j = j') -> ~ (i = j' /\ j = i') -> setBoth f i j x i' j' = f i' j'.
Proof. intros H1 H2. unfold setBoth. rewrite !set2_other by lia. reflexivity. Qed.
Lemma setBoth_same f i j x : setBoth f i j x i j = x /\ setBoth f i j x j i = x.
Proof. unfold setBoth, set2. rewrite !Nat.eqb_refl. cbn. split; [|reflexivity]. destruct (Nat.eqb_spec i j), (Nat.eqb_spec j i); cbn; reflexivity. Qed.
Definition same (t t' : tables) (i j : nat) : Prop := k0 t i j = k0 t' i j /\ k1 t i j = k1 t' i j /\ dG t i j = dG t' i j.
Lemma nth_lt {A} (l : list A) n x : nth_error l n = Some x -> (n < length l)%nat.
Proof. intros H. apply nth_error_Some. congruence. Qed.
Lemma step_frame r t t' i j a b : nth_error cs i = Some a -> nth_error cs j = Some b -> step r t t' -> ~ about (comp3 a) (comp3 b) r -> same t t' i j.
Proof.
  intros Hi Hj S H. pose proof (nth_lt _ _ _ Hi). pose proof (nth_lt _ _ _ Hj).
  assert (N : forall n m x y p f, nth_error cs n = Some x -> nth_error cs m = Some y -> ~ about (comp3 a) (comp3 b) (Pair (comp3 x) (comp3 y) p f) -> ~ (n = i /\ m = j) /\ ~ (n = j /\ m = i)).
  { intros n m x y p f Hn Hm HA. split; intros [-> ->]; apply HA; cbn; [left|right]; split; f_equal; congruence. }
  inversion S; subst; unfold same; cbn [k0 k1 dG].
  - rewrite !set2_other by lia. auto.
  - edestruct N as [N1 N2]; [| |exact H|]; try eassumption. rewrite !setBoth_other by assumption. auto.
  - edestruct N as [N1 N2]; [| |exact H|]; try eassumption. rewrite !setBoth_other by assumption. auto.
  - edestruct N as [N1 N2]; [| |exact H|]; try eassumption. rewrite !setBoth_other by assumption. auto.
Qed.
Lemma steps_frame rs t t' i j a b : nth_error cs i = Some a -> nth_error cs j = Some b -> steps rs t t' -> (forall r, In r rs -> ~ about (comp3 a) (comp3 b) r) -> same t t' i j.
Proof.
  intros Hi Hj S. induction S as [t|r rs t t1 t2 S1 S2 IH]; intros H; [unfold same; auto|].
  destruct (step_frame r t t1 i j a b Hi Hj S1) as (A1 & A2 & A3); [apply H; left; reflexivity|]. destruct IH as (B1 & B2 & B3); [intros r' Hr'; apply H; right; exact Hr'|].
  unfold same. rewrite A1, A2, A3. auto.
Qed.
Lemma step_frame_sink r t t' i a : nth_error cs i = Some a -> step r t t' -> ~ aboutSink (comp3 a) r -> same t t' i (length cs).
Proof.
  intros Hi S H. pose proof (nth_lt _ _ _ Hi).
  inversion S; subst; unfold same; cbn [k0 k1 dG];
    repeat match goal with Hn : nth_error cs ?x = Some _ |- _ => first [apply nth_lt in Hn as ?|fail]; revert Hn end; intros.
  - assert (n <> i) by (intros ->; apply H; cbn; f_equal; congruence). rewrite !set2_other by lia. auto.
  - rewrite !setBoth_other by lia. auto.
  - rewrite !setBoth_other by lia. auto.
  - rewrite !setBoth_other by lia. auto.
Qed.
Lemma steps_frame_sink rs t t' i a : nth_error cs i = Some a -> steps rs t t' -> (forall r, In r rs -> ~ aboutSink (comp3 a) r) -> same t t' i (length cs).
Proof.
  intros Hi S. induction S as [t|r rs t t1 t2 S1 S2 IH]; intros H; [unfold same; auto|].
  destruct (step_frame_sink r t t1 i a Hi S1) as (A1 & A2 & A3); [apply H; left; reflexivity|]. destruct IH as (B1 & B2 & B3); [intros r' Hr'; apply H; right; exact Hr'|].
  unfold same. rewrite A1, A2, A3. auto.
Qed.
End READING.

(** ** A well-formed file: every cluster once and part of the network, the four point defects among them, reactions between them; a product
    which is in the network is described, too. *)
Definition wellFormed (cluster : Z * Z * Z -> option nat) (cs : list description) (rs : list statement) : Prop :=
  Forall (known cluster) cs /\ NoDup (ids cluster cs) /\ Forall (sound cluster cs) rs /\
  among cs (0, 0, 1)%Z /\ among cs (0, 1, 0)%Z /\ among cs (0, 2, 0)%Z /\ among cs (1, 0, 0)%Z.
Lemma formation_ground T cluster cs s c : represents T cluster cs s -> Forall (known cluster) cs -> among cs c ->
  exists e d, formation cluster s c = Some (eG e) /\ In d cs /\ comp3 d = c /\ isEntry T d e.
Proof.
  intros HR HK HA. destruct (among_nth cs c HA) as (n & d & HN & <-). unfold formation. rewrite (mapped_nth T cluster cs s HR HK n d HN).
  destruct (entry_nth T cluster cs s HR n d HN) as (e & EE & HE). rewrite EE. exists e, d. split; [reflexivity|]. split; [eapply nth_error_In; eauto|]. auto.
Qed.
Lemma same_description cluster cs c d : NoDup (ids cluster cs) -> In c cs -> In d cs -> comp3 c = comp3 d -> c = d.
Proof.
  unfold ids. induction cs as [|x cs IH]; intros ND Hc Hd E; [destruct Hc|]. cbn [map] in ND. inversion ND as [|? ? N1 N2]; subst.
  destruct Hc as [->|Hc], Hd as [->|Hd]; auto; exfalso; apply N1; apply in_map_iff; [exists d|exists c]; (split; [congruence|assumption]).
Qed.
Lemma read_ok T cluster cs rs : 0 < T -> wellFormed cluster cs rs -> exists res,
  setup T cluster true (Some (file cs rs)) = Some (Some res) /\ represents T cluster cs (rClusters res) /\ steps T cluster cs rs zeros (rTables res) /\
  forall d g, In d cs -> ground T d g ->
    (comp3 d = (0, 0, 1)%Z -> rI res = g) /\ (comp3 d = (0, 1, 0)%Z -> rV res = g) /\ (comp3 d = (0, 2, 0)%Z -> rV2 res = g) /\ (comp3 d = (1, 0, 0)%Z -> rXe res = g).
Proof.
  intros HT (HK & HN & HS & H1 & H2 & H3 & H4). assert (NE : exists c cs', cs = c :: cs') by (destruct cs as [|c cs']; [destruct H1 as (d & [] & _)|eauto]).
  destruct NE as (c0 & cs' & EQ). unfold setup, readReactions. destruct (Req_EM_T T 0); [lra|].
  assert (ES : sections (file cs rs) = (map clusterLine cs, map reactionLine rs)) by (rewrite EQ; apply sections_file). rewrite ES. unfold readLines.
  destruct (addClusters_represents T cluster cs [] noCluster) as (s & EA & HR); [|exact HK|exact HN|].
  { split; [constructor|]. split; [intros [|q]; discriminate|]. split; [discriminate|]. intros c id g []. }
  cbn [app] in HR. rewrite EA. destruct (reactions_steps T cluster cs s HR HK rs zeros HS) as (t & ER & HP). rewrite ER.
  destruct (formation_ground T cluster cs s _ HR HK H1) as (ei & di & F1 & I1 & C1 & E1). destruct (formation_ground T cluster cs s _ HR HK H2) as (ev & dv & F2 & I2 & C2 & E2).
  destruct (formation_ground T cluster cs s _ HR HK H3) as (e2 & d2 & F3 & I3 & C3 & E3). destruct (formation_ground T cluster cs s _ HR HK H4) as (ex & dx & F4 & I4 & C4 & E4).
  rewrite F1, F2, F3, F4. eexists. split; [reflexivity|]. cbn [rClusters rTables rI rV rV2 rXe]. split; [exact HR|]. split; [exact HP|].
  intros d g Hd Hg. split; [|split; [|split]]; intros EC;
    [pose proof (same_description cluster cs d di HN Hd I1 ltac:(congruence)) as -> |pose proof (same_description cluster cs d dv HN Hd I2 ltac:(congruence)) as ->
    |pose proof (same_description cluster cs d d2 HN Hd I3 ltac:(congruence)) as -> |pose proof (same_description cluster cs d dx HN Hd I4 ltac:(congruence)) as ->];
    (eapply ground_unique; [|exact Hg]); [apply E1|apply E2|apply E3|apply E4].
Qed.
(** A well-formed file is read without error; every cluster diffuses with the sum of the mobilities of its states, weighted by their
    Boltzmann factors relative to the state of least free energy, and the formation energies are those least free energies. *)
Theorem c66_clusters : forall T cluster cs rs, 0 < T -> wellFormed cluster cs rs -> exists res,
  setup T cluster true (Some (file cs rs)) = Some (Some res) /\
  (forall n d id g, nth_error cs n = Some d -> cluster (comp3 d) = Some id -> ground T d g ->
     assoc (cMap (rClusters res)) id = Some n /\ cFactor (rClusters res) id = Some (effective T g d)) /\
  (forall d g, In d cs -> ground T d g ->
    (comp3 d = (0, 0, 1)%Z -> rI res = g) /\ (comp3 d = (0, 1, 0)%Z -> rV res = g) /\ (comp3 d = (0, 2, 0)%Z -> rV2 res = g) /\ (comp3 d = (1, 0, 0)%Z -> rXe res = g)).
Proof.
  intros T cluster cs rs HT HW. destruct (read_ok T cluster cs rs HT HW) as (res & E & (R1 & R2 & R3 & R4) & _ & HF). exists res. split; [exact E|]. split; [|exact HF].
  intros n d id g Hn Hc Hg. split; [eapply R2; eauto|]. eapply R4; eauto. eapply nth_error_In; eauto.
Qed.
Print Assumptions c66_clusters.
(** The last statement about a pair decides, in both orders of the reactants. *)
Definition lastAbout (P : statement -> Prop) (rs : list statement) (r : statement) : Prop :=
  exists pre post, rs = pre ++ r :: post /\ forall r', In r' post -> ~ P r'.
Lemma about_sym a b r : about a b r <-> about b a r. Proof. destruct r; cbn; tauto. Qed.
Theorem c66_pair : forall T cluster cs rs res, 0 < T -> wellFormed cluster cs rs -> setup T cluster true (Some (file cs rs)) = Some (Some res) ->
  forall n m a b p f ga gb, nth_error cs n = Some a -> nth_error cs m = Some b -> ground T a ga -> ground T b gb ->
  lastAbout (about (comp3 a) (comp3 b)) rs (Pair (comp3 a) (comp3 b) p f) \/ lastAbout (about (comp3 a) (comp3 b)) rs (Pair (comp3 b) (comp3 a) p f) ->
  let t := rTables res in
  k0 t n m = k0 t m n /\ dG t n m = dG t m n /\
  (Rabs f < 1 -> k0 t n m = 0 /\ k1 t n m = 0 /\ dG t n m = 0) /\
  (1 <= Rabs f -> k0 t n m = effective T ga a * partition T gb b + partition T ga a * effective T gb b /\
    (cluster p = None -> dG t n m = - ga - gb) /\
    (forall c gc, In c cs -> comp3 c = p -> ground T c gc -> dG t n m = gc - ga - gb /\ k1 t n m = k1 t m n /\
       k1 t n m = (Rsum (all a) (mobility T) * INR (length (all b)) + INR (length (all a)) * Rsum (all b) (mobility T)) * partition T gc c)).
Proof.
  intros T cluster cs rs res HT HW ES n m a b p f ga gb Hn Hm Ga Gb HL. destruct (read_ok T cluster cs rs HT HW) as (res' & ES' & HR & HP & _). rewrite ES in ES'. injection ES' as <-.
  destruct HW as (HK & HN & HS & _). cbv zeta.
  assert (NM : forall x y n' m', nth_error cs n' = Some x -> nth_error cs m' = Some y -> comp3 x = comp3 a -> comp3 y = comp3 b -> n' = n /\ m' = m).
  { intros x y n' m' Hx Hy Ex Ey. pose proof (mapped_nth T cluster cs _ HR HK _ _ Hx) as M1. pose proof (mapped_nth T cluster cs _ HR HK _ _ Hn) as M2. pose proof (mapped_nth T cluster cs _ HR HK _ _ Hy) as M3.
    pose proof (mapped_nth T cluster cs _ HR HK _ _ Hm) as M4. rewrite Ex in M1. rewrite Ey in M3. split; congruence. }
  assert (ND : forall c d, In c cs -> In d cs -> comp3 c = comp3 d -> c = d) by (intros; eapply same_description; eauto).
  assert (K : forall a' b' t t', (a' = a /\ b' = b) \/ (a' = b /\ b' = a) -> step T cluster cs (Pair (comp3 a') (comp3 b') p f) t t' -> 
    (k0 t' n m = k0 t' m n /\ dG t' n m = dG t' m n) /\ (Rabs f < 1 -> k0 t' n m = 0 /\ k1 t' n m = 0 /\ dG t' n m = 0) /\
    (1 <= Rabs f -> k0 t' n m = effective T ga a * partition T gb b + partition T ga a * effective T gb b /\
    (cluster p = None -> dG t' n m = - ga - gb) /\
    (forall c gc, In c cs -> comp3 c = p -> ground T c gc -> dG t' n m = gc - ga - gb /\ k1 t' n m = k1 t' m n /\
       k1 t' n m = (Rsum (all a) (mobility T) * INR (length (all b)) + INR (length (all a)) * Rsum (all b) (mobility T)) * partition T gc c))).
  { intros a' b' t t' Hab S.
    assert (IX : forall x y n' m', nth_error cs n' = Some x -> nth_error cs m' = Some y -> comp3 x = comp3 a' -> comp3 y = comp3 b' ->
       (x = a' /\ y = b') /\ ((n' = n /\ m' = m /\ a' = a /\ b' = b) \/ (n' = m /\ m' = n /\ a' = b /\ b' = a))).
    { intros x y n' m' Hx Hy Ex Ey. pose proof (nth_error_In _ _ Hx). pose proof (nth_error_In _ _ Hy). pose proof (nth_error_In _ _ Hn). pose proof (nth_error_In _ _ Hm).
      destruct Hab as [[-> ->]|[-> ->]]; (split; [split; apply ND; auto|]); [left|right].
      - destruct (NM _ _ _ _ Hx Hy Ex Ey) as [-> ->]. auto.
      - destruct (NM _ _ _ _ Hy Hx Ey Ex) as [-> ->]. auto. }
    remember (Pair (comp3 a') (comp3 b') p f) as st eqn:Est.
    destruct S as [|n' m' x y p' f' t0 Hx Hy Hf|n' m' x y p' f' t0 ea eb Hx Hy Xe Ye Hf Hc|n' m' q x y z f' t0 ea eb ep Hx Hy Hz Xe Ye Ze Hf]; [discriminate| | |]; injection Est as Q1 Q2 Q3 Q4; subst f'; try subst p'; try subst p.
    - destruct (IX _ _ _ _ Hx Hy Q1 Q2) as [[-> ->] HI]. cbn [k0 k1 dG]. split; [|split; [|intros F; lra]].
      + destruct HI as [(-> & -> & _)|(-> & -> & _)]; rewrite !(proj1 (setBoth_same _ _ _ _)), !(proj2 (setBoth_same _ _ _ _)); auto.
      + intros _. destruct HI as [(-> & -> & _)|(-> & -> & _)]; rewrite ?(proj1 (setBoth_same _ _ _ _)), ?(proj2 (setBoth_same _ _ _ _)); auto.
    - destruct (IX _ _ _ _ Hx Hy Q1 Q2) as [[-> ->] HI]. cbn [k0 k1 dG]. rewrite (forward_law T a' b' ea eb Xe Ye).
      destruct HI as [(-> & -> & -> & ->)|(-> & -> & -> & ->)].
      + rewrite (ground_unique T a (eG ea) ga (proj1 (proj2 Xe)) Ga), (ground_unique T b (eG eb) gb (proj1 (proj2 Ye)) Gb). rewrite !(proj1 (setBoth_same _ _ _ _)), !(proj2 (setBoth_same _ _ _ _)).
        split; [auto|]. split; [intros F; lra|]. intros _. split; [reflexivity|]. split; [intros _; ring|]. intros c gc Hc' E' _. exfalso. subst p. rewrite Forall_forall in HK. apply (HK _ Hc'). assumption.
      + rewrite (ground_unique T b (eG ea) gb (proj1 (proj2 Xe)) Gb), (ground_unique T a (eG eb) ga (proj1 (proj2 Ye)) Ga). rewrite !(proj1 (setBoth_same _ _ _ _)), !(proj2 (setBoth_same _ _ _ _)).
        split; [auto|]. split; [intros F; lra|]. intros _. split; [ring|]. split; [intros _; ring|]. intros c gc Hc' E' _. exfalso. subst p. rewrite Forall_forall in HK. apply (HK _ Hc'). assumption.
    - destruct (IX _ _ _ _ Hx Hy Q1 Q2) as [[-> ->] HI]. cbn [k0 k1 dG]. rewrite (forward_law T a' b' ea eb Xe Ye), (backward_law T a' b' z ea eb ep Xe Ye Ze).
      assert (PZ : cluster (comp3 z) <> None) by (rewrite Forall_forall in HK; apply HK; eapply nth_error_In; eauto).
      destruct HI as [(-> & -> & -> & ->)|(-> & -> & -> & ->)].
      + rewrite (ground_unique T a (eG ea) ga (proj1 (proj2 Xe)) Ga), (ground_unique T b (eG eb) gb (proj1 (proj2 Ye)) Gb). rewrite !(proj1 (setBoth_same _ _ _ _)), !(proj2 (setBoth_same _ _ _ _)).
        split; [auto|]. split; [intros F; lra|]. intros _. split; [reflexivity|]. split; [intros F; contradiction|]. intros c gc Hc' E' Gc.
        assert (c = z) as -> by (apply ND; [assumption|eapply nth_error_In; eauto|assumption]). rewrite (ground_unique T z (eG ep) gc (proj1 (proj2 Ze)) Gc). split; [ring|]. auto.
      + rewrite (ground_unique T b (eG ea) gb (proj1 (proj2 Xe)) Gb), (ground_unique T a (eG eb) ga (proj1 (proj2 Ye)) Ga). rewrite !(proj1 (setBoth_same _ _ _ _)), !(proj2 (setBoth_same _ _ _ _)).
        split; [auto|]. split; [intros F; lra|]. intros _. split; [ring|]. split; [intros F; contradiction|]. intros c gc Hc' E' Gc.
        assert (c = z) as -> by (apply ND; [assumption|eapply nth_error_In; eauto|assumption]). rewrite (ground_unique T z (eG ep) gc (proj1 (proj2 Ze)) Gc). split; [ring|]. split; [reflexivity|ring]. }
  assert (L : exists a' b', ((a' = a /\ b' = b) \/ (a' = b /\ b' = a)) /\ lastAbout (about (comp3 a) (comp3 b)) rs (Pair (comp3 a') (comp3 b') p f)) by (destruct HL; [exists a, b|exists b, a]; auto).
  destruct L as (a' & b' & Hab & (pre & post & -> & HNo)). apply steps_app in HP as (u & _ & HP). inversion HP as [|? ? ? u1 u2 S1 S2]; subst.
  destruct (steps_frame T cluster cs _ _ _ n m a b Hn Hm S2 HNo) as (F1 & F2 & F3).
  destruct (steps_frame T cluster cs _ _ _ m n b a Hm Hn S2) as (F1' & F2' & F3'); [intros r' Hr'; rewrite <- about_sym; apply HNo; exact Hr'|].
  rewrite <- F1, <- F2, <- F3, <- F1', <- F2', <- F3'. destruct (K _ _ _ _ Hab S1) as ((K1 & K2) & K3 & K4). auto.
Qed.
Print Assumptions c66_pair.
(** No statement about the pair: all zero. *)
Theorem c66_absent : forall T cluster cs rs res, 0 < T -> wellFormed cluster cs rs -> setup T cluster true (Some (file cs rs)) = Some (Some res) ->
  forall n m a b, nth_error cs n = Some a -> nth_error cs m = Some b -> (forall r, In r rs -> ~ about (comp3 a) (comp3 b) r) ->
  k0 (rTables res) n m = 0 /\ k1 (rTables res) n m = 0 /\ dG (rTables res) n m = 0.
Proof.
  intros T cluster cs rs res HT HW ES n m a b Hn Hm HNo. destruct (read_ok T cluster cs rs HT HW) as (res' & ES' & HR & HP & _). rewrite ES in ES'. injection ES' as <-.
  destruct (steps_frame T cluster cs _ _ _ n m a b Hn Hm HP HNo) as (F1 & F2 & F3). rewrite <- F1, <- F2, <- F3. auto.
Qed.
Print Assumptions c66_absent.
(** Sinks: column [length cs]. *)
Theorem c66_sink : forall T cluster cs rs res, 0 < T -> wellFormed cluster cs rs -> setup T cluster true (Some (file cs rs)) = Some (Some res) ->
  forall n a g, nth_error cs n = Some a -> ground T a g ->
  (forall k, lastAbout (aboutSink (comp3 a)) rs (Sink (comp3 a) k) ->
     k0 (rTables res) n (readClusters (file cs rs)) = k * effective T g a /\ dG (rTables res) n (readClusters (file cs rs)) = - g) /\
  ((forall r, In r rs -> ~ aboutSink (comp3 a) r) -> k0 (rTables res) n (readClusters (file cs rs)) = 0 /\ dG (rTables res) n (readClusters (file cs rs)) = 0).
Proof.
  intros T cluster cs rs res HT HW ES n a g Hn Hg. destruct (read_ok T cluster cs rs HT HW) as (res' & ES' & HR & HP & _). rewrite ES in ES'. injection ES' as <-.
  assert (LEN : readClusters (file cs rs) = length cs).
  { unfold setup in ES. destruct (readReactions T cluster (file cs rs)) as [r0|] eqn:ER; [|discriminate]. injection ES as <-. destruct (c66_count _ _ _ _ ER) as [-> _].
    apply (entries_length T cluster cs). exact HR. }
  rewrite LEN. destruct HW as (HK & HN & HS & _). split.
  - intros k (pre & post & -> & HNo). apply steps_app in HP as (u & _ & HP). inversion HP as [|? ? ? u1 u2 S1 S2]; subst.
    destruct (steps_frame_sink T cluster cs _ _ _ n a Hn S2 HNo) as (F1 & F2 & F3). rewrite <- F1, <- F3.
    remember (Sink (comp3 a) k) as st eqn:Est. destruct S1 as [n' c k' t0 e Hc He y| | |]; try discriminate. injection Est as Q1 Q2. subst k'. cbn [k0 dG].
    assert (c = a) as -> by (eapply same_description; [exact HN|eapply nth_error_In; eauto|eapply nth_error_In; eauto|assumption]).
    pose proof (mapped_nth T cluster cs _ HR HK _ _ Hc) as M1. pose proof (mapped_nth T cluster cs _ HR HK _ _ Hn) as M2. assert (n' = n) as -> by congruence.
    rewrite !set2_same, (diffusivity_effective T a e He), (ground_unique T a (eG e) g (proj1 (proj2 He)) Hg). auto.
  - intros HNo. destruct (steps_frame_sink T cluster cs _ _ _ n a Hn HP HNo) as (F1 & F2 & F3). rewrite <- F1, <- F3. auto.
Qed.
Print Assumptions c66_sink.

(** The rates which the file gives for a reaction and for the dissociation of its product are in detailed balance with the free energies of
    the ground states, provided one of the reactants moves. *)
Definition moves (c : description) : Prop := (forall s, In s (all c) -> 0 <= prefactor s) /\ exists s, In s (all c) /\ 0 < prefactor s.
Definition still (c : description) : Prop := forall s, In s (all c) -> 0 <= prefactor s.
Lemma Rsum_nonneg' {A} (l : list A) f : (forall x, In x l -> 0 <= f x) -> 0 <= Rsum l f.
Proof. induction l as [|x l IH]; intros H; [cbn; lra|]. replace (Rsum (x :: l) f) with (f x + Rsum l f) by reflexivity. pose proof (H x (or_introl eq_refl)). specialize (IH (fun y Hy => H y (or_intror Hy))). lra. Qed.
Lemma Rsum_pos' {A} (l : list A) f : (forall x, In x l -> 0 <= f x) -> (exists x, In x l /\ 0 < f x) -> 0 < Rsum l f.
Proof.
  induction l as [|x l IH]; intros H (y & Hy & Py); [destruct Hy|]. pose proof (Rsum_nonneg' l f (fun z Hz => H z (or_intror Hz))). pose proof (H x (or_introl eq_refl)).
  replace (Rsum (x :: l) f) with (f x + Rsum l f) by reflexivity. destruct Hy as [->|Hy]; [lra|]. assert (0 < Rsum l f) by (apply IH; [intros; apply H; right; assumption|eauto]). lra.
Qed.
Lemma mobility_nonneg T s : 0 <= prefactor s -> 0 <= mobility T s. Proof. intros. apply Rmult_le_pos; [assumption|apply Rlt_le, exp_pos]. Qed.
Lemma mobility_pos T s : 0 < prefactor s -> 0 < mobility T s. Proof. intros. apply Rmult_lt_0_compat; [assumption|apply exp_pos]. Qed.
Lemma effective_nonneg T g c : still c -> 0 <= effective T g c.
Proof. intros H. apply Rsum_nonneg'. intros x Hx. apply Rmult_le_pos; [apply mobility_nonneg, H; exact Hx|apply Rlt_le, exp_pos]. Qed.
Lemma effective_pos T g c : moves c -> 0 < effective T g c.
Proof. intros [H (s & Hs & Ps)]. apply Rsum_pos'; [intros x Hx; apply Rmult_le_pos; [apply mobility_nonneg, H; exact Hx|apply Rlt_le, exp_pos]|]. exists s. split; [exact Hs|]. apply Rmult_lt_0_compat; [apply mobility_pos; exact Ps|apply exp_pos]. Qed.
Lemma partition_pos T g c : 0 < partition T g c.
Proof. apply Rsum_pos'; [intros; apply Rlt_le, exp_pos|]. exists (own c). split; [left; reflexivity|apply exp_pos]. Qed.
Theorem c66_balance : forall T cluster cs rs res, 0 < T -> wellFormed cluster cs rs -> setup T cluster true (Some (file cs rs)) = Some (Some res) ->
  forall n m a b c f ga gb gc omega r0 r1 dc0 dc1 be, nth_error cs n = Some a -> nth_error cs m = Some b -> In c cs -> ground T a ga -> ground T b gb -> ground T c gc ->
  lastAbout (about (comp3 a) (comp3 b)) rs (Pair (comp3 a) (comp3 b) (comp3 c) f) -> 1 <= Rabs f ->
  still a -> still b -> moves a \/ moves b -> 0 < omega -> 0 < r0 ->
  let t := rTables res in
  let made := neProduction (Some (k0 t n m, k1 t n m)) (dG t n m) T r0 r1 dc0 dc1 in
  0 < made /\
  neDissociation (Some (k0 t n m, k1 t n m)) omega (dG t n m) T r0 r1 dc0 dc1 be = made / omega * exp ((gc - ga - gb) / (kB * T)).
Proof.
  intros T cluster cs rs res HT HW ES n m a b c f ga gb gc omega r0 r1 dc0 dc1 be Hn Hm Hc Ga Gb Gc HL Hf Sa Sb Mv Ho Hr.
  destruct (c66_pair T cluster cs rs res HT HW ES n m a b (comp3 c) f ga gb Hn Hm Ga Gb (or_introl HL)) as (_ & _ & _ & P). destruct (P Hf) as (P0 & _ & P1).
  destruct (P1 c gc Hc eq_refl Gc) as (PG & _ & PK). cbv zeta. rewrite PG.
  assert (K0 : 0 < k0 (rTables res) n m).
  { rewrite P0. pose proof (partition_pos T ga a). pose proof (partition_pos T gb b). pose proof (effective_nonneg T ga a Sa). pose proof (effective_nonneg T gb b Sb).
    destruct Mv as [M|M]; [pose proof (effective_pos T ga a M)|pose proof (effective_pos T gb b M)]; nra. }
  assert (K1 : 0 < k1 (rTables res) n m).
  { rewrite PK. apply Rmult_lt_0_compat; [|apply partition_pos].
    assert (L : forall d, 1 <= INR (length (all d))) by (intros d; cbn [all length]; rewrite S_INR; pose proof (pos_INR (length (linked d))); lra).
    pose proof (L a). pose proof (L b). assert (NN : forall d, still d -> 0 <= Rsum (all d) (mobility T)) by (intros d Hd; apply Rsum_nonneg'; intros; apply mobility_nonneg, Hd; assumption).
    assert (PP : forall d, moves d -> 0 < Rsum (all d) (mobility T)) by (intros d [Hd (s & Hs & Ps)]; apply Rsum_pos'; [intros; apply mobility_nonneg, Hd; assumption|exists s; split; [exact Hs|apply mobility_pos; exact Ps]]).
    pose proof (NN a Sa). pose proof (NN b Sb). destruct Mv as [M|M]; [pose proof (PP a M)|pose proof (PP b M)]; nra. }
  split; [|apply Properties_Energy.c45_ne_balance; assumption].
  unfold neProduction. set (rate := if Rlt_dec 0 (gc - ga - gb) then _ else _). assert (R0 : 0 < rate) by (unfold rate; destruct (Rlt_dec 0 (gc - ga - gb)); [apply Rmult_lt_0_compat; [exact K1|apply exp_pos]|exact K0]).
  destruct (Rlt_dec 0 rate); [|lra]. pose proof PI_RGT_0. unfold zFactor. repeat (apply Rmult_lt_0_compat; try lra).
Qed.
Print Assumptions c66_balance.
(** The sink of the file drives a cluster to exp (- g / kT) / Omega. *)
Theorem c66_sink_level : forall T cluster cs rs res, 0 < T -> wellFormed cluster cs rs -> setup T cluster true (Some (file cs rs)) = Some (Some res) ->
  forall n a g k r omega x, nth_error cs n = Some a -> ground T a g -> lastAbout (aboutSink (comp3 a)) rs (Sink (comp3 a) k) -> 0 < k -> moves a -> 0 < omega ->
  let N := readClusters (file cs rs) in
  SinkModel.neSinkFlux r (k0 (rTables res) n N) omega (dG (rTables res) n N) T x = 0 <-> x = exp (- g / (kB * T)) / omega.
Proof.
  intros T cluster cs rs res HT HW ES n a g k r omega x Hn Hg HL Hk Mv Ho. cbv zeta. destruct (c66_sink T cluster cs rs res HT HW ES n a g Hn Hg) as [S _]. destruct (S k HL) as [-> ->].
  apply Properties_Sink.c65_ne_equilibrium; [|exact Ho]. apply Rmult_lt_0_compat; [exact Hk|apply effective_pos; exact Mv].
Qed.
Print Assumptions c66_sink_level.

(** ** What the file cannot say *)
(** A reaction switched off (last column 0), or not in the file at all, is not switched off: as the rate is not positive, the usual
    diffusion-limited rate is used, a hundredfold. *)
Theorem c66_off_refuted : forall T cluster cs rs res, 0 < T -> wellFormed cluster cs rs -> setup T cluster true (Some (file cs rs)) = Some (Some res) ->
  forall n m a b, nth_error cs n = Some a -> nth_error cs m = Some b ->
  (exists p, lastAbout (about (comp3 a) (comp3 b)) rs (Pair (comp3 a) (comp3 b) p 0)) \/ (forall r, In r rs -> ~ about (comp3 a) (comp3 b) r) ->
  forall r0 r1 dc0 dc1, 0 < r0 + r1 -> 0 < dc0 + dc1 ->
  let t := rTables res in
  neProduction (Some (k0 t n m, k1 t n m)) (dG t n m) T r0 r1 dc0 dc1 = 4 * PI * (r0 + r1) * (dc0 + dc1) * 100 /\
  0 < neProduction (Some (k0 t n m, k1 t n m)) (dG t n m) T r0 r1 dc0 dc1.
Proof.
  intros T cluster cs rs res HT HW ES n m a b Hn Hm HO r0 r1 dc0 dc1 Hr Hd. cbv zeta.
  assert (Z : k0 (rTables res) n m = 0 /\ k1 (rTables res) n m = 0 /\ dG (rTables res) n m = 0).
  { destruct HO as [(p & HL)|HO]; [|exact (c66_absent T cluster cs rs res HT HW ES n m a b Hn Hm HO)].
    assert (GE : forall d, exists g, ground T d g) by (intros d; destruct (entryOf_line T cluster d) as (e & _ & _ & HG & _); eauto).
    destruct (GE a) as [ga Ga]. destruct (GE b) as [gb Gb].
    destruct (c66_pair T cluster cs rs res HT HW ES n m a b p 0 ga gb Hn Hm Ga Gb (or_introl HL)) as (_ & _ & P & _). apply P. rewrite Rabs_R0. lra. }
  destruct Z as (-> & -> & ->). unfold neProduction. destruct (Rlt_dec 0 0); [lra|]. destruct (Rlt_dec 0 0); [lra|]. unfold getRate, zFactor. split; [ring|].
  pose proof PI_RGT_0. repeat (apply Rmult_lt_0_compat; try lra).
Qed.
Print Assumptions c66_off_refuted.
(** The last column is otherwise ignored: any two values of at least 1 give the same network. *)
Lemma reaction_flag T cluster s a b p f f' t : 1 <= Rabs f -> 1 <= Rabs f' ->
  reaction T cluster s (reactionLine (Pair a b p f)) t = reaction T cluster s (reactionLine (Pair a b p f')) t.
Proof.
  intros H H'. destruct a as [[x v] i], b as [[x' v'] i'], p as [[x'' v''] i'']. unfold reaction, pairLine, compAt, reactionLine, numbers. cbn [app nth_error Nat.add length Nat.eqb].
  unfold truncatedZero. destruct (Rlt_dec (Rabs f) 1); [lra|]. destruct (Rlt_dec (Rabs f') 1); [lra|]. reflexivity.
Qed.
Theorem c66_coefficient_refuted : forall T cluster cs pre post a b p f f', cs <> [] -> 1 <= Rabs f -> 1 <= Rabs f' ->
  setup T cluster true (Some (file cs (pre ++ Pair a b p f :: post))) = setup T cluster true (Some (file cs (pre ++ Pair a b p f' :: post))).
Proof.
  intros T cluster cs pre post a b p f f' Hcs H H'. destruct cs as [|c cs]; [contradiction|]. unfold setup, readReactions. rewrite !sections_file. unfold readLines.
  destruct (Req_EM_T T 0); [reflexivity|]. destruct (addClusters T cluster (map clusterLine (c :: cs)) noCluster) as [s|]; [|reflexivity].
  replace (reactions T cluster s (map reactionLine (pre ++ Pair a b p f' :: post)) zeros) with (reactions T cluster s (map reactionLine (pre ++ Pair a b p f :: post)) zeros); [reflexivity|].
  generalize zeros as t. induction pre as [|r pre IH]; intros t; cbn [app map reactions].
  - rewrite (reaction_flag T cluster s a b p f f' t H H'). reflexivity.
  - destruct (reaction T cluster s (reactionLine r) t); [apply IH|reflexivity].
Qed.
Print Assumptions c66_coefficient_refuted.
(** A network without single xenon, interstitial, vacancy or divacancy, or a file which does not describe it: undefined. *)
Theorem c66_required_refuted : forall T cluster c, In c [(0, 0, 1); (0, 1, 0); (0, 2, 0); (1, 0, 0)]%Z ->
  (cluster c = None -> forall f, setup T cluster true (Some f) = None) /\
  (forall cs rs, cs <> [] -> Forall (known cluster) cs -> NoDup (ids cluster cs) -> Forall (sound cluster cs) rs -> ~ In (cluster c) (ids cluster cs) ->
     setup T cluster true (Some (file cs rs)) = None).
Proof.
  intros T cluster c HI.
  assert (G : forall cl rl, (forall s, addClusters T cluster cl noCluster = Some s -> formation cluster s c = None) -> readLines T cluster cl rl = None).
  { intros cl rl H. unfold readLines. destruct (addClusters T cluster cl noCluster) as [s|]; [|reflexivity]. specialize (H s eq_refl).
    destruct (reactions T cluster s rl zeros); [|reflexivity]. cbn [In] in HI. destruct HI as [<-|[<-|[<-|[<-|[]]]]]; rewrite H; repeat destruct (formation _ _ _); reflexivity. }
  split.
  - intros HN f. unfold setup, readReactions. destruct (Req_EM_T T 0); [reflexivity|]. destruct (sections f) as [cl rl]. rewrite G; [reflexivity|]. intros s _. unfold formation, mapped. rewrite HN. reflexivity.
  - intros cs rs Hcs HK HN HS HC. destruct cs as [|c0 cs]; [contradiction|]. unfold setup, readReactions. destruct (Req_EM_T T 0); [reflexivity|]. rewrite sections_file. rewrite G; [reflexivity|].
    intros s ES. destruct (addClusters_represents T cluster (c0 :: cs) [] noCluster) as (s' & EA & HR); [|exact HK|exact HN|].
    { split; [constructor|]. split; [intros [|q]; discriminate|]. split; [discriminate|]. intros ? ? ? []. }
    rewrite EA in ES. injection ES as <-. destruct HR as (_ & _ & R3 & _). unfold formation, mapped. destruct (cluster c) as [id|] eqn:EC; [|reflexivity].
    destruct (assoc (cMap s') id) as [q|] eqn:EQ; [|reflexivity]. exfalso. apply HC. cbn [app] in R3. eapply R3. exact EQ.
Qed.
Print Assumptions c66_required_refuted.
(** A line about a cluster which the network does not have, or whose number of columns is not 7, 11, 15 ...: undefined. *)
Lemma states_length T l ss : states T l = Some ss -> length l = (4 * length ss)%nat.
Proof.
  revert l. induction ss as [|s ss IH]; intros l E; destruct l as [|h [|x [|d [|q l]]]]; try discriminate; cbn [states] in E; try reflexivity.
  - destruct (states T l); discriminate.
  - destruct (states T l) as [ss'|] eqn:E'; [|discriminate]. injection E as E1 E2. subst ss'. specialize (IH _ E'). cbn [length]. lia.
Qed.
Lemma addClusters_bad T cluster pre l post s : (forall s', addCluster T cluster l s' = None) -> addClusters T cluster (pre ++ l :: post) s = None.
Proof. intros H. revert s. induction pre as [|x pre IH]; intros s; cbn [app addClusters]; [rewrite H; reflexivity|]. destruct (addCluster T cluster x s); [apply IH|reflexivity]. Qed.
Lemma clusterLoop_lines l ls q : Forall (fun x => x <> []) (l :: ls) -> clusterLoop l (map Toks ls ++ Marker :: q) = (l :: ls, q).
Proof.
  revert l. induction ls as [|x ls IH]; intros l H; inversion H as [|? ? H1 H2]; subst; cbn [map app clusterLoop]; destruct l as [|y l]; try contradiction; [reflexivity|].
  rewrite IH by exact H2. reflexivity.
Qed.
Theorem c66_line_refuted : forall T cluster pre l post q, Forall (fun x => x <> []) (pre ++ l :: post) ->
  (exists x v i more, l = IZR x :: IZR v :: IZR i :: more /\ (0 <= x /\ 0 <= v /\ 0 <= i)%Z /\ cluster (x, v, i) = None) \/ (forall k, length l <> (7 + 4 * k)%nat) ->
  setup T cluster true (Some (map Toks (pre ++ l :: post) ++ Marker :: q)) = None.
Proof.
  intros T cluster pre l post q HF HB. unfold setup, readReactions. destruct (Req_EM_T T 0); [reflexivity|].
  assert (ES : sections (map Toks (pre ++ l :: post) ++ Marker :: q) = (pre ++ l :: post, reactionLoop q)).
  { destruct (pre ++ l :: post) as [|x ls] eqn:E; [destruct pre; discriminate|]. cbn [map app sections tokens]. rewrite clusterLoop_lines by exact HF. reflexivity. }
  rewrite ES. unfold readLines. rewrite addClusters_bad; [reflexivity|]. intros s. unfold addCluster. destruct HB as [(x & v & i & more & -> & (H1 & H2 & H3) & HC)|HB].
  - unfold compAt. cbn [nth_error Nat.add]. rewrite !unsigned_IZR by assumption. rewrite HC. reflexivity.
  - destruct (compAt l 0) as [c|] eqn:EC; [|reflexivity]. destruct (cluster c); [|reflexivity]. destruct (entryOf T l) as [e|] eqn:EE; [|reflexivity]. exfalso. unfold entryOf in EE.
    destruct (states T (skipn 3 l)) as [[|[d g] ss]|] eqn:E; try discriminate. apply states_length in E. rewrite skipn_length in E. cbn [length] in E. apply (HB (length ss)). lia.
Qed.
Print Assumptions c66_line_refuted.
(** Two lines for one cluster: it diffuses as the second says, its reactions follow the first. *)
Theorem c66_twice_refuted : forall T cluster cs d d' n id g', 0 < T -> wellFormed cluster cs [] -> nth_error cs n = Some d ->
  comp3 d' = comp3 d -> cluster (comp3 d) = Some id -> ground T d' g' -> exists res,
  setup T cluster true (Some (file (cs ++ [d']) [])) = Some (Some res) /\
  cFactor (rClusters res) id = Some (effective T g' d') /\
  assoc (cMap (rClusters res)) id = Some n /\ exists e, entryAt (rClusters res) n = Some e /\ isEntry T d e.
Proof.
  intros T cluster cs d d' n id g' HT (HK & HN & HS & H1 & H2 & H3 & H4) Hn EC Hid Hg. unfold setup, readReactions. destruct (Req_EM_T T 0); [lra|].
  assert (ES : sections (file (cs ++ [d']) []) = (map clusterLine (cs ++ [d']), [])) by (destruct cs as [|c cs]; [destruct n; discriminate|]; apply sections_file). rewrite ES. unfold readLines.
  destruct (addClusters_represents T cluster cs [] noCluster) as (s & EA & HR); [|exact HK|exact HN|].
  { split; [constructor|]. split; [intros [|q]; discriminate|]. split; [discriminate|]. intros ? ? ? []. }
  cbn [app] in HR. assert (AA : forall l1 l2 s0 s1, addClusters T cluster l1 s0 = Some s1 -> addClusters T cluster (l1 ++ l2) s0 = addClusters T cluster l2 s1).
  { clear. induction l1 as [|x l1 IH]; intros l2 s0 s1 E; cbn [app addClusters] in *; [injection E as ->; reflexivity|]. destruct (addCluster T cluster x s0); [apply IH; exact E|discriminate]. }
  rewrite map_app, (AA _ _ _ _ EA). cbn [map addClusters]. unfold addCluster.
  assert (HP : positive3 (comp3 d')) by (rewrite EC; rewrite Forall_forall in HK; apply HK; eapply nth_error_In; eauto).
  rewrite (compAt_numbers (comp3 d') (clusterLine d') 0 (concat (map fields (all d'))) HP eq_refl). rewrite EC, Hid. destruct (entryOf_line T cluster d') as (e' & EE & HE). rewrite EE. cbv zeta.
  destruct HR as (R1 & R2 & R3 & R4). pose proof (R2 _ _ _ Hn Hid) as Hm. rewrite Hm. cbn [reactions].
  set (s' := Clusters (cEntries s ++ [e']) (cMap s) (fun i => if (i =? id)%nat then Some (diffusivity T e') else cFactor s i)).
  assert (EN : forall q x, nth_error cs q = Some x -> exists e, entryAt s' q = Some e /\ isEntry T x e).
  { intros q x Hq. destruct (Forall2_nth _ _ _ _ _ R1 Hq) as (e & E1 & E2). exists e. split; [|exact E2]. unfold entryAt, s'. cbn [cEntries]. rewrite nth_error_app1; [exact E1|]. apply nth_error_Some. congruence. }
  assert (FO : forall c, among cs c -> exists x, formation cluster s' c = Some x).
  { intros c Hc. destruct (among_nth cs c Hc) as (q & x & Hq & <-). unfold formation, mapped. rewrite Forall_forall in HK. destruct (HK x (nth_error_In _ _ Hq)) as [_ HKx].
    destruct (cluster (comp3 x)) as [idx|] eqn:EX; [|contradiction]. unfold s' at 1. cbn [cMap]. rewrite (R2 _ _ _ Hq EX). destruct (EN _ _ Hq) as (e & -> & _). eauto. }
  destruct (FO _ H1) as [? ->], (FO _ H2) as [? ->], (FO _ H3) as [? ->], (FO _ H4) as [? ->]. eexists. split; [reflexivity|]. cbn [rClusters]. split; [|split].
  - unfold s'. cbn [cFactor]. rewrite Nat.eqb_refl, (diffusivity_effective T d' e' HE). do 2 f_equal. eapply ground_unique; [apply HE|exact Hg].
  - exact Hm.
  - apply EN. exact Hn.
Qed.
Print Assumptions c66_twice_refuted.
(** The diffusivity of a cluster is not a mean of the mobilities of its states: with k + 1 equal states it is k + 1 times their mobility. *)
Theorem c66_mean_refuted : forall T c st k,
  ground T (Desc c st (repeat st k)) (freeEnergy T st) /\
  effective T (freeEnergy T st) (Desc c st (repeat st k)) = INR (S k) * mobility T st.
Proof.
  intros T c st k. assert (A : forall s, In s (all (Desc c st (repeat st k))) -> s = st) by (intros s [<-|H]; [reflexivity|apply repeat_spec in H; exact H]). split.
  - split; [exists st; split; [left; reflexivity|reflexivity]|]. intros s Hs. rewrite (A s Hs). lra.
  - unfold effective. rewrite (Rsum_ext _ _ (fun _ => mobility T st)).
    + rewrite Rsum_const'. unfold all. cbn [own linked length]. rewrite repeat_length. reflexivity.
    + intros s Hs. rewrite (A s Hs). unfold boltz. replace (- (freeEnergy T st - freeEnergy T st) / (kB * T)) with 0 by (unfold Rdiv; ring). rewrite exp_0. ring.
Qed.
Print Assumptions c66_mean_refuted.

(** ** A file *)
Definition net (c : Z * Z * Z) : option nat :=
  let '(x, v, i) := c in
  match x, v, i with 0%Z, 0%Z, 1%Z => Some 0%nat | 0%Z, 1%Z, 0%Z => Some 1%nat | 0%Z, 2%Z, 0%Z => Some 2%nat | 1%Z, 0%Z, 0%Z => Some 3%nat | _, _, _ => None end.
Definition single1 c h := Desc c (State h 1 2 3) [].
Definition theV : description := Desc (0, 1, 0)%Z (State 3 1 2 4) [State 2 1 5 1; State 6 0 0 0].
Definition four : list description := [single1 (0, 0, 1)%Z 4; theV; single1 (0, 2, 0)%Z 5; single1 (1, 0, 0)%Z 9].
Definition three : list statement := [Sink (0, 0, 1)%Z 0.001; Pair (0, 1, 0)%Z (0, 1, 0)%Z (0, 2, 0)%Z 2970; Pair (0, 0, 1)%Z (0, 1, 0)%Z (0, 0, 0)%Z 2100; Pair (0, 1, 0)%Z (0, 2, 0)%Z (0, 3, 0)%Z 0].
Example c66_ok : wellFormed net four three /\ moves theV /\ still theV /\ nth_error four 1 = Some theV /\ ground 1000 theV (freeEnergy 1000 (State 2 1 5 1)) /\
  lastAbout (about (comp3 theV) (comp3 theV)) three (Pair (comp3 theV) (comp3 theV) (0, 2, 0)%Z 2970) /\
  lastAbout (aboutSink (0, 0, 1)%Z) three (Sink (0, 0, 1)%Z 0.001) /\ lastAbout (about (0, 1, 0) (0, 2, 0))%Z three (Pair (0, 1, 0)%Z (0, 2, 0)%Z (0, 3, 0)%Z 0) /\
  (forall r, In r three -> ~ about (1, 0, 0) (0, 1, 0) r)%Z /\ wellFormed net four [].
Proof.
  assert (A : forall c, net c <> None -> among four c).
  { intros [[x v] i] H. unfold net in H. repeat (match type of H with context [match ?z with _ => _ end] => destruct z end; try contradiction); unfold among, four;
      first [solve [exists (single1 (0, 0, 1)%Z 4); cbn; auto 10]|solve [exists theV; cbn; auto 10]|solve [exists (single1 (0, 2, 0)%Z 5); cbn; auto 10]|solve [exists (single1 (1, 0, 0)%Z 9); cbn; auto 10]]. }
  assert (W : forall rs, Forall (sound net four) rs -> wellFormed net four rs).
  { intros rs H. split; [|split; [|split; [exact H|]]].
    - repeat constructor; cbn; try lia; discriminate.
    - cbn. repeat constructor; cbn; intuition discriminate.
    - repeat split; apply A; discriminate. }
  split; [apply W|].
  { unfold three. repeat (apply Forall_cons); [| | | |constructor]; cbn [sound].
    - apply A. discriminate.
    - split; [apply A; discriminate|]. split; [apply A; discriminate|]. split; [cbn; lia|]. right. apply A. discriminate.
    - split; [apply A; discriminate|]. split; [apply A; discriminate|]. split; [cbn; lia|]. left. reflexivity.
    - split; [apply A; discriminate|]. split; [apply A; discriminate|]. split; [cbn; lia|]. left. reflexivity. }
  split; [split; [|exists (State 3 1 2 4)]; cbn; intuition (subst; cbn; lra)|]. split; [intros s; cbn; intuition (subst; cbn; lra)|]. split; [reflexivity|].
  split; [split; [exists (State 2 1 5 1); cbn; auto|]; unfold freeEnergy, kB; intros s [<-|[<-|[<-|[]]]]; cbn [own theV enthalpy entropy]; lra|].
  split; [exists [Sink (0, 0, 1)%Z 0.001], [Pair (0, 0, 1)%Z (0, 1, 0)%Z (0, 0, 0)%Z 2100; Pair (0, 1, 0)%Z (0, 2, 0)%Z (0, 3, 0)%Z 0]; split; [reflexivity|]; intros r' [<-|[<-|[]]]; cbn; intuition discriminate|].
  split; [exists [], (tl three); split; [reflexivity|]; intros r' [<-|[<-|[<-|[]]]]; cbn; auto|].
  split; [exists (removelast three), []; split; [reflexivity|]; intros r' []|].
  split; [intros r' [<-|[<-|[<-|[<-|[]]]]]; cbn; intuition discriminate|]. apply W. constructor.
Qed.
