(** C84: the transport which acts in a run and the clusters it moves. *)
From Coq Require Import String Reals List Arith Bool ZArith Lra Lia Sorted.
From Verif Require Import HandlersModel.
From Verif Require TokenModel.
Import ListNotations.
Local Open Scope R_scope.
Set Implicit Arguments.

(** * Specification *)
(** The amounts of a cluster of [n] atoms of [s] alone, in the order of the species. *)
Definition species_dec (a b : species) : {a = b} + {a <> b}. Proof. decide equality. Defined.
Definition alone (l : list species) (s : species) (n : nat) : list nat := map (fun x => if species_dec x s then n else 0%nat) l.
(** The lists of species of the networks of tungsten. *)
Definition tungsten (net : network) : Prop :=
  psi net = true /\ In (specs net) [[He; D; T; V; I]; [He; D; V; I]; [He; T; V; I]; [He; V; I]].
(** An entry of a table: a species, a size, a strength; it moves when its cluster is in the
    network and its diffusion factor is not below 2^-52. *)
Definition entry := (species * nat * R)%type.
Definition moves (net : network) (e : entry) : Prop :=
  let '(s, n, _) := e in In s (specs net) /\ exists id, find net (alone (specs net) s n) = Some id /\ / 2 ^ 52 <= Rabs (factor net id).
(** What a handler holds for a table: the clusters of the entries which move, in the order of the
    table, each with its strength, and one diagonal pair for each. *)
Definition listed (net : network) (table : list entry) (h : lists) : Prop :=
  length (clusters h) = length (strengths h) /\ pairs h = map (fun id => (id, id)) (clusters h) /\
  exists f, (forall e, In e table -> (f e = true <-> moves net e)) /\
    Forall2 (fun e c => find net (alone (specs net) (fst (fst e)) (snd (fst e))) = Some (fst c) /\ snd c = snd e)
      (filter f table) (combine (clusters h) (strengths h)).
(** The tables: the strengths of the drift (in eV nm^3), the factors of the thermal diffusion. *)
Definition heliumTable (l : list R) : list entry := combine (map (fun n => (He, n)) [1; 2; 3; 4; 5; 6; 7]%nat) l.
Definition surface (m : material) : list entry :=
  match m with
  | W100 => heliumTable [2.28e-3; 5.06e-3; 7.26e-3; 15.87e-3; 16.95e-3; 27.16e-3; 35.56e-3]
  | W110 => heliumTable [0.92e-3; 1.48e-3; 6.73e-3; 6.18e-3; 33.61e-3; 37.58e-3; 41.90e-3]
  | W111 => heliumTable [3.65e-3; 6.40e-3; 16.38e-3; 9.84e-3; 44.40e-3; 52.12e-3; 81.57e-3]
  | W211 => heliumTable [1.49e-3; 3.69e-3; 12.34e-3; 14.11e-3; 19.14e-3; 35.77e-3; 67.65e-3]
  | _ => []
  end.
Definition grain : list entry := heliumTable [0.54e-3; 1.01e-3; 3.03e-3; 3.93e-3; 7.24e-3; 10.82e-3; 19.26e-3].
Definition thermal : list entry :=
  [(He, 1%nat, 0.0065); (He, 2%nat, 0.011); (He, 3%nat, 0.013); (He, 4%nat, 0.0566); (D, 1%nat, 0.0045); (T, 1%nat, 0.0045); (I, 1%nat, 0.0128); (V, 1%nat, 0.049)].
(** Helium of the sizes 1 to 7 is in the network. *)
Definition sevenHelium (net : network) : Prop := forall n, (1 <= n <= 7)%nat -> find net (alone (specs net) He n) <> None.
(** What the initialisation of a drift must give for a table. *)
Definition drifting (net : network) (table : list entry) (o : outcome lists) : Prop :=
  (sevenHelium net -> exists h, o = Done h /\ listed net table h) /\ (~ sevenHelium net -> o = Thrown).
(** A run: the constructor of the material, then the initialisation by the solver. *)
Definition run (m : material) (net : network) (threshold : R) (dim : Z) (diff advec soret : bool) (gbs : list TokenModel.text) : outcome moving :=
  match materialHandler m dim diff advec soret gbs with
  | TokenModel.Done hs => setup net threshold dim hs
  | TokenModel.Thrown => Thrown
  | TokenModel.Undefined => Undefined
  end.

(** * Lemmas *)
Lemma equal_spec a : equal a 0 = false <-> / 2 ^ 52 <= Rabs a.
Proof. unfold equal. replace (0 - a) with (- a) by ring. rewrite Rabs_Ropp. destruct (Rlt_dec _ _); split; intros; try reflexivity; try discriminate; lra. Qed.
Lemma equal_big a : 1 / 100000 <= a -> equal a 0 = false.
Proof. intros H. apply equal_spec. rewrite Rabs_right by lra. simpl. lra. Qed.
Lemma put_put c : forall k a b, put (put c k a) k b = put c k b.
Proof. induction c as [|x c IH]; intros [|k] a b; cbn; auto. now rewrite IH. Qed.

Definition isMobile (net : network) (i : nat) : bool :=
  match find net (alone (specs net) He i) with Some id => negb (equal (factor net id) 0) | None => false end.
Definition idOf (net : network) (i : nat) : nat := match find net (alone (specs net) He i) with Some id => id | None => 0%nat end.
Definition present (net : network) (i : nat) : bool := match find net (alone (specs net) He i) with Some _ => true | None => false end.
Lemma driftFold net table : (forall i, (1 <= i <= 7)%nat -> equal (nth (i - 1) table 0 / 100000) 0 = false) ->
  forall l comp h, (forall i, In i l -> (1 <= i <= 7)%nat) -> (forall i, put comp (position (specs net) He) i = alone (specs net) He i) ->
  exists comp', fold_left (driftTurn net table) l (Done (comp, h)) =
    if forallb (present net) l then
      let js := filter (isMobile net) l in
      Done (comp', Lists (clusters h ++ map (idOf net) js) (strengths h ++ map (fun i => nth (i - 1) table 0 / 100000) js) (pairs h ++ map (fun i => (idOf net i, idOf net i)) js))
    else Thrown.
Proof.
  intros Ht l. induction l as [|i l IH]; intros comp h Hl Hc.
  - exists comp. cbn. rewrite !app_nil_r. destruct h; reflexivity.
  - assert (Th : fold_left (driftTurn net table) l Thrown = Thrown).
    { clear. induction l; cbn; auto. }
    cbn [fold_left forallb filter]. cbn [driftTurn]. rewrite Hc.
    destruct (find net (alone (specs net) He i)) as [id|] eqn:E.
    2:{ exists comp. assert (P : present net i = false) by (unfold present; now rewrite E). rewrite P. exact Th. }
    assert (P : present net i = true) by (unfold present; now rewrite E). rewrite P. cbn [andb].
    assert (M : isMobile net i = negb (equal (factor net id) 0)) by (unfold isMobile; now rewrite E). rewrite M.
    assert (Hc' : forall j, put (alone (specs net) He i) (position (specs net) He) j = alone (specs net) He j) by (intros j; rewrite <- (Hc i), put_put; apply Hc).
    destruct (equal (factor net id) 0) eqn:F; cbn [negb].
    + destruct (IH (alone (specs net) He i) h (fun j Hj => Hl j (or_intror Hj)) Hc') as [c' G]. exists c'. exact G.
    + rewrite Ht by (apply Hl; left; reflexivity).
      edestruct (IH (alone (specs net) He i)) as [c' G]; [intros; apply Hl; right; assumption|exact Hc'|]. exists c'. rewrite G.
      destruct (forallb (present net) l); [|reflexivity]. cbn [map clusters strengths pairs].
      assert (J : idOf net i = id) by (unfold idOf; now rewrite E). rewrite J, <- !app_assoc. reflexivity.
Qed.
Lemma zeros_ok net : tungsten net -> forall i, put (zeros net) (position (specs net) He) i = alone (specs net) He i.
Proof. intros [_ H] i. unfold zeros. cbn in H. destruct H as [<-|[<-|[<-|[<-|[]]]]]; reflexivity. Qed.
Lemma driftInit_eq net table h : tungsten net -> (forall i, (1 <= i <= 7)%nat -> equal (nth (i - 1) table 0 / 100000) 0 = false) ->
  driftInit net table h =
    if forallb (present net) (seq 1 7) then
      let js := filter (isMobile net) (seq 1 7) in
      Done (Lists (map (idOf net) js) (map (fun i => nth (i - 1) table 0 / 100000) js) (pairs h ++ map (fun i => (idOf net i, idOf net i)) js))
    else Thrown.
Proof.
  intros Hn Ht. unfold driftInit. rewrite (proj1 Hn).
  destruct (@driftFold net table Ht (seq 1 7) (zeros net) (Lists [] [] (pairs h))) as [c E].
  - intros i Hi. apply in_seq in Hi. lia.
  - apply zeros_ok, Hn.
  - rewrite E. destruct (forallb _ _); reflexivity.
Qed.
Lemma seven net : sevenHelium net <-> forallb (present net) (seq 1 7) = true.
Proof.
  rewrite forallb_forall. unfold present. split.
  - intros H i Hi. apply in_seq in Hi. specialize (H i ltac:(lia)). destruct (find _ _); congruence.
  - intros H i Hi E. specialize (H i ltac:(apply in_seq; lia)). rewrite E in H. discriminate.
Qed.
Lemma mobile_moves net i r : tungsten net -> (isMobile net i = true <-> moves net (He, i, r)).
Proof.
  intros [_ H]. unfold moves, isMobile.
  assert (In He (specs net)) by (cbn in H; destruct H as [<-|[<-|[<-|[<-|[]]]]]; cbn; auto).
  destruct (find _ _) as [id|]; split.
  - intros E. split; [assumption|]. exists id. split; [reflexivity|]. apply equal_spec. now apply negb_true_iff.
  - intros [_ [id' [E F]]]. injection E as <-. apply equal_spec in F. now rewrite F.
  - discriminate.
  - intros [_ [id [E _]]]. discriminate.
Qed.
(** The table of the handler, entry by entry, is that of the specification. *)
Definition tabulated (table : list R) (spec : list R) : Prop :=
  length spec = 7%nat /\ forall i, (i < 7)%nat -> nth i table 0 / 100000 = nth i spec 0 /\ 1 / 100000 <= nth i spec 0.
Lemma listed_of net table spec h : tungsten net -> tabulated table spec -> pairs h = [] -> sevenHelium net ->
  exists h', driftInit net table h = Done h' /\ listed net (heliumTable spec) h'.
Proof.
  intros Hn [Hl Ht] Hp H7. rewrite driftInit_eq; auto.
  2:{ intros i Hi. destruct (Ht (i - 1)%nat ltac:(lia)) as [E F]. apply equal_big. lra. }
  rewrite (proj1 (seven net) H7). eexists; split; [reflexivity|]. rewrite Hp. cbn [app].
  unfold listed. cbn [clusters strengths pairs]. rewrite !map_length, !map_map. repeat split.
  exists (fun e : entry => isMobile net (snd (fst e))). split.
  - intros [[s n] r] Hin. assert (s = He) as ->.
    { unfold heliumTable in Hin. apply in_combine_l in Hin. apply in_map_iff in Hin. destruct Hin as [x [E _]]. congruence. }
    cbn [fst snd]. apply mobile_moves, Hn.
  - destruct spec as [|r0 [|r1 [|r2 [|r3 [|r4 [|r5 [|r6 [|]]]]]]]]; try discriminate Hl. clear Hl.
    assert (G : forall i r, (i < 7)%nat -> nth i [r0; r1; r2; r3; r4; r5; r6] 0 = r -> nth i table 0 / 100000 = r) by (intros i q Hi <-; apply Ht, Hi).
    clear Ht. unfold heliumTable. cbn [seq map combine].
    assert (K : forall l : list (nat * R), (forall p, In p l -> (1 <= fst p <= 7)%nat /\ nth (fst p - 1) table 0 / 100000 = snd p) ->
      Forall2 (fun (e : entry) (c : nat * R) => find net (alone (specs net) (fst (fst e)) (snd (fst e))) = Some (fst c) /\ snd c = snd e)
        (filter (fun e : entry => isMobile net (snd (fst e))) (map (fun p => (He, fst p, snd p)) l))
        (combine (map (idOf net) (filter (isMobile net) (map fst l))) (map (fun i => nth (i - 1) table 0 / 100000) (filter (isMobile net) (map fst l))))).
    { induction l as [|p l IHl]; intros Hp'; cbn [map filter]; [constructor|]. cbn [fst snd].
      destruct (isMobile net (fst p)) eqn:M.
      - cbn [map combine]. constructor.
        + cbn [fst snd]. split; [|apply Hp'; left; reflexivity]. unfold isMobile in M. unfold idOf. destruct (find _ _); [reflexivity|discriminate].
        + apply IHl. intros; apply Hp'; right; assumption.
      - apply IHl. intros; apply Hp'; right; assumption. }
    specialize (K [(1%nat, r0); (2%nat, r1); (3%nat, r2); (4%nat, r3); (5%nat, r4); (6%nat, r5); (7%nat, r6)]).
    apply K. cbn [In]. intros p [<-|[<-|[<-|[<-|[<-|[<-|[<-|[]]]]]]]]; (split; [cbn; lia|]); cbn [fst snd]; apply G; (reflexivity || cbn; lia).
Qed.

Ltac tab := split; [reflexivity|]; intros [|[|[|[|[|[|[|i]]]]]]] Hi; cbn [nth]; try lia; lra.
Lemma surface_tab m table : surfaceTable m = Some table -> exists spec, surface m = heliumTable spec /\ tabulated table spec.
Proof. destruct m; cbn [surfaceTable]; intros E; try discriminate; injection E as <-; (eexists; split; [reflexivity|]); tab. Qed.
Lemma grain_tab : tabulated grainTable [0.54e-3; 1.01e-3; 3.03e-3; 3.93e-3; 7.24e-3; 10.82e-3; 19.26e-3].
Proof. unfold grainTable. tab. Qed.
Lemma surface_none m : surfaceTable m = None -> surface m = [].
Proof. destruct m; try discriminate; reflexivity. Qed.
Lemma listed_none net : listed net [] empty.
Proof. split; [reflexivity|]. split; [reflexivity|]. exists (fun _ => true). split; [intros e []|constructor]. Qed.

(** The thermal diffusion, entry by entry. *)
Definition step (net : network) (e : entry) (h : lists) : lists :=
  if (if in_dec species_dec (fst (fst e)) (specs net) then true else false) then
    match find net (alone (specs net) (fst (fst e)) (snd (fst e))) with
    | Some id => if equal (factor net id) 0 then h else Lists (clusters h ++ [id]) (strengths h ++ [snd e]) (pairs h ++ [(id, id)])
    | None => h
    end
  else h.
Lemma soret_steps net h : tungsten net -> soretInit net h = Done (fold_left (fun h e => step net e h) thermal (Lists [] (strengths h) (pairs h))).
Proof.
  intros [P H]. unfold soretInit. rewrite P.
  replace thermal with [(He, 1%nat, 65 / 10000); (He, 2%nat, 110 / 10000); (He, 3%nat, 130 / 10000); (He, 4%nat, 566 / 10000); (D, 1%nat, 45 / 10000); (T, 1%nat, 45 / 10000); (I, 1%nat, 128 / 10000); (V, 1%nat, 490 / 10000)].
  2:{ unfold thermal. repeat (f_equal; try lra). }
  cbn in H. unfold soretAdd, step, zeros, has.
  destruct H as [E|[E|[E|[E|[]]]]]; rewrite <- E; reflexivity.
Qed.
Definition movesb (net : network) (e : entry) : bool :=
  if in_dec species_dec (fst (fst e)) (specs net) then
    match find net (alone (specs net) (fst (fst e)) (snd (fst e))) with Some id => negb (equal (factor net id) 0) | None => false end
  else false.
Definition eid (net : network) (e : entry) : nat := match find net (alone (specs net) (fst (fst e)) (snd (fst e))) with Some id => id | None => 0%nat end.
Lemma movesb_spec net e : movesb net e = true <-> moves net e.
Proof.
  destruct e as [[s n] r]. unfold movesb, moves. cbn [fst snd]. destruct (in_dec _ _ _) as [i|i].
  2:{ split; [discriminate|]. intros [H _]. contradiction. }
  destruct (find _ _) as [id|]; split.
  - intros E. split; [assumption|]. exists id. split; [reflexivity|]. apply equal_spec. now apply negb_true_iff.
  - intros [_ [id' [E F]]]. injection E as <-. apply equal_spec in F. now rewrite F.
  - discriminate.
  - intros [_ [id [E _]]]. discriminate.
Qed.
Lemma step_eq net e h : step net e h = if movesb net e then Lists (clusters h ++ [eid net e]) (strengths h ++ [snd e]) (pairs h ++ [(eid net e, eid net e)]) else h.
Proof. unfold step, movesb, eid. destruct (in_dec _ _ _); [|reflexivity]. destruct (find _ _) as [id|]; [|reflexivity]. destruct (equal _ _); reflexivity. Qed.
Lemma steps_eq net : forall l h, fold_left (fun h e => step net e h) l h =
  Lists (clusters h ++ map (eid net) (filter (movesb net) l)) (strengths h ++ map snd (filter (movesb net) l)) (pairs h ++ map (fun e => (eid net e, eid net e)) (filter (movesb net) l)).
Proof.
  induction l as [|e l IH]; intros h; cbn [fold_left filter].
  - cbn. rewrite !app_nil_r. destruct h; reflexivity.
  - rewrite IH, step_eq. destruct (movesb net e); [|reflexivity]. cbn [map clusters strengths pairs]. rewrite <- !app_assoc. reflexivity.
Qed.
Lemma steps_listed net l : listed net l (fold_left (fun h e => step net e h) l empty).
Proof.
  rewrite steps_eq. cbn [empty clusters strengths pairs app]. unfold listed. cbn [clusters strengths pairs].
  rewrite !map_length, map_map. repeat split. exists (movesb net). split; [intros; apply movesb_spec|].
  assert (G : forall q, In q (filter (movesb net) l) -> movesb net q = true) by (intros q Hq; apply filter_In in Hq; tauto).
  induction (filter (movesb net) l) as [|e k IH]; [constructor|]. cbn [map combine]. constructor.
  - cbn [fst snd]. split; [|reflexivity]. specialize (G e (or_introl eq_refl)). unfold movesb in G. unfold eid.
    destruct (in_dec _ _ _); [|discriminate]. destruct (find _ _); [reflexivity|discriminate].
  - apply IH. intros; apply G; right; assumption.
Qed.
Lemma sorted_seq f : forall n a, StronglySorted lt (filter f (seq a n)).
Proof.
  induction n; intros a; cbn [seq filter]; [constructor|]. destruct (f a); [|apply IHn]. constructor; [apply IHn|].
  apply Forall_forall. intros x Hx. apply filter_In in Hx. destruct Hx as [Hx _]. apply in_seq in Hx. lia.
Qed.

(** * The theorems *)

(** A drift, from whatever the handler held before: helium of the sizes 1 to 7, in order, with the
    strengths of the table; it throws exactly when one of the sizes is not in the network. *)
Lemma drifting_of net table spec h : tungsten net -> tabulated table spec -> pairs h = [] -> drifting net (heliumTable spec) (driftInit net table h).
Proof.
  intros Hn Ht Hp. split; [intros; now apply listed_of|]. intros H. rewrite driftInit_eq; auto.
  - destruct (forallb (present net) (seq 1 7)) eqn:E; [|reflexivity]. exfalso. apply H, seven, E.
  - intros i Hi. destruct Ht as [_ Ht]. destruct (Ht (i - 1)%nat ltac:(lia)) as [E F]. apply equal_big. lra.
Qed.
Theorem c84_drift net h : tungsten net -> pairs h = [] ->
  (forall m table, surfaceTable m = Some table -> drifting net (surface m) (driftInit net table h)) /\
  drifting net grain (driftInit net grainTable h).
Proof.
  intros Hn Hp. split.
  - intros m table E. destruct (surface_tab m E) as [spec [-> Ht]]. now apply drifting_of.
  - apply drifting_of; auto. apply grain_tab.
Qed.

(** The thermal diffusion, first and second time. *)
Theorem c84_thermal net h : tungsten net -> strengths h = [] -> pairs h = [] -> exists h', soretInit net h = Done h' /\ listed net thermal h'.
Proof. intros Hn Hs Hp. eexists. split; [apply soret_steps, Hn|]. rewrite Hs, Hp. apply steps_listed. Qed.
(** Initialised again with the same network: the factors of the clusters are the same (the list
    of the factors is longer than that of the clusters). *)
Theorem c84_thermal_again net h h' : tungsten net -> soretInit net h = Done h' -> strengths h = [] ->
  exists h'', soretInit net h' = Done h'' /\ clusters h'' = clusters h' /\ firstn (length (clusters h'')) (strengths h'') = strengths h'.
Proof.
  intros Hn E Hs. rewrite soret_steps, steps_eq in E by assumption. rewrite soret_steps, steps_eq by assumption.
  inversion_clear E. eexists. split; [reflexivity|]. cbn [clusters strengths pairs app]. rewrite Hs. cbn [app]. split; [reflexivity|].
  rewrite !map_length. rewrite <- (map_length snd (filter (movesb net) thermal)) at 1. rewrite firstn_app, Nat.sub_diag, firstn_all. cbn [firstn]. now rewrite app_nil_r.
Qed.

(** A run in one, two or three dimensions with helium 1 to 7 in the network and grain boundaries which can be read:
    what moves, and how. *)
Theorem c84_run m net threshold dim diff advec soret gbs places : tungsten net -> sevenHelium net -> In dim [1; 2; 3]%Z ->
  TokenModel.grainBoundaries dim gbs = Done places ->
  exists mv, run m net threshold dim diff advec soret gbs = Done mv /\
    StronglySorted lt (byDiffusion mv) /\
    (forall i, In i (byDiffusion mv) <-> diff = true /\ (i < numClusters net)%nat /\ / 2 ^ 52 <= Rabs (factor net i) /\ migration net i <= threshold) /\
    (exists first rest, byDrift mv = first :: rest /\ listed net (if advec then surface m else []) first /\
       length rest = length places /\ Forall (listed net grain) rest) /\
    listed net (if (dim =? 1)%Z then if soret then match m with W100 => thermal | _ => [] end else [] else []) (bySoret mv).
Proof.
  intros Hn H7 Hd Hg. unfold run, materialHandler.
  assert (Cd : createDiffusion diff dim = Done diff) by (unfold createDiffusion; destruct diff; [|reflexivity]; cbn [In] in Hd; destruct Hd as [<-|[<-|[<-|[]]]]; reflexivity).
  rewrite Cd, Hg. unfold setup.
  assert (D0 : (dim =? 0)%Z = false) by (cbn [In] in Hd; destruct Hd as [<-|[<-|[<-|[]]]]; reflexivity). rewrite D0. cbn [driftOn soretOn difOn].
  assert (R : exists rest, drifts net (map (fun _ => Some grainTable) places) = Done rest /\ length rest = length places /\ Forall (listed net grain) rest).
  { clear Hg. induction places as [|p places [rest [E [L F]]]]; [exists []; repeat split; constructor|].
    destruct (proj1 (proj2 (c84_drift empty Hn eq_refl)) H7) as [h [Eh Lh]].
    exists (h :: rest). cbn [map drifts]. rewrite Eh, E. cbn [length]. rewrite L. repeat split. now constructor. }
  destruct R as [rest [Er [Lr Fr]]].
  assert (Fi : exists first, drifts net ((if advec then surfaceTable m else None) :: map (fun _ => Some grainTable) places) = Done (first :: rest) /\ listed net (if advec then surface m else []) first).
  { cbn [drifts]. destruct advec.
    - destruct (surfaceTable m) as [table|] eqn:Et.
      + destruct (proj1 (proj1 (c84_drift empty Hn eq_refl) m table Et) H7) as [h [Eh Lh]]. exists h. rewrite Eh, Er. now split.
      + exists (driftDummy empty). rewrite Er. split; [reflexivity|]. rewrite surface_none by assumption. apply listed_none.
    - exists (driftDummy empty). rewrite Er. split; [reflexivity|]. apply listed_none. }
  destruct Fi as [first [Ef Lf]]. rewrite Ef.
  assert (So : exists s, (if ((dim =? 1)%Z && (soret && hasSoret m))%bool then soretInit net empty else Done empty) = Done s /\
    listed net (if (dim =? 1)%Z then if soret then match m with W100 => thermal | _ => [] end else [] else []) s).
  { destruct (dim =? 1)%Z; cbn [andb]; [|exists empty; split; [reflexivity|apply listed_none]].
    destruct soret; cbn [andb]; [|exists empty; split; [reflexivity|apply listed_none]].
    destruct m; cbn [hasSoret]; try (exists empty; split; [reflexivity|apply listed_none]).
    apply c84_thermal; auto. }
  destruct So as [s [Es Ls]]. rewrite Es. eexists. split; [reflexivity|]. cbn [byDiffusion byDrift bySoret].
  split; [destruct diff; [apply sorted_seq|constructor]|]. split; [|split; [exists first, rest; auto|exact Ls]].
  intros i. split.
  - intros H. destruct diff; [|contradiction]. apply filter_In in H. destruct H as [Hi H]. apply in_seq in Hi. unfold diffuses in H.
    apply negb_true_iff, orb_false_iff in H. destruct H as [H1 H2]. split; [reflexivity|]. split; [lia|]. split; [now apply equal_spec|].
    destruct (Rlt_dec threshold (migration net i)); [discriminate|lra].
  - intros [-> [Hi [Hf Hm]]]. apply filter_In. split; [apply in_seq; lia|]. unfold diffuses. apply equal_spec in Hf. rewrite Hf. destruct (Rlt_dec _ _); [lra|reflexivity].
Qed.
(** In no dimension nothing moves. *)
Theorem c84_still m net threshold diff advec soret gbs places : TokenModel.grainBoundaries 0 gbs = Done places ->
  exists mv, run m net threshold 0 diff advec soret gbs = Done mv /\ byDiffusion mv = [] /\ byDrift mv = [] /\ clusters (bySoret mv) = [].
Proof. intros E. unfold run, materialHandler, createDiffusion. destruct diff; cbn [negb Z.eqb]; rewrite E; eexists; (split; [reflexivity|]); repeat split. Qed.
(** A drift is asked for and a size of helium from 1 to 7 is missing: the run does not begin. *)
Theorem c84_missing m net threshold dim diff advec soret gbs places : tungsten net -> ~ sevenHelium net -> In dim [1; 2; 3]%Z ->
  TokenModel.grainBoundaries dim gbs = Done places -> (advec = true /\ In m [W100; W110; W111; W211]) \/ places <> [] ->
  run m net threshold dim diff advec soret gbs = Thrown.
Proof.
  intros Hn H7 Hd Hg Hw. unfold run, materialHandler.
  assert (Cd : createDiffusion diff dim = Done diff) by (unfold createDiffusion; destruct diff; [|reflexivity]; cbn [In] in Hd; destruct Hd as [<-|[<-|[<-|[]]]]; reflexivity).
  rewrite Cd, Hg. unfold setup.
  assert (D0 : (dim =? 0)%Z = false) by (cbn [In] in Hd; destruct Hd as [<-|[<-|[<-|[]]]]; reflexivity). rewrite D0. cbn [driftOn].
  destruct (c84_drift empty Hn eq_refl) as [Ds Dg].
  assert (E : drifts net ((if advec then surfaceTable m else None) :: map (fun _ => Some grainTable) places) = Thrown); [|now rewrite E].
  assert (G : places <> [] -> drifts net (map (fun _ => Some grainTable) places) = Thrown).
  { destruct places; [congruence|]. intros _. cbn [map drifts]. now rewrite (proj2 Dg H7). }
  cbn [drifts]. destruct Hw as [[-> Hm]|Hw].
  - destruct (surfaceTable m) as [table|] eqn:Et; [now rewrite (proj2 (Ds m table Et) H7)|].
    cbn [In] in Hm. destruct Hm as [<-|[<-|[<-|[<-|[]]]]]; discriminate.
  - destruct (if advec then surfaceTable m else None) as [table|] eqn:Et.
    + destruct advec; [|discriminate]. now rewrite (proj2 (Ds m table Et) H7).
    + now rewrite G.
Qed.

(** Another dimension than zero to three is an error when the diffusion is asked for. *)
Theorem c84_dimension m net threshold dim advec soret gbs : ~ In dim [0; 1; 2; 3]%Z -> run m net threshold dim true advec soret gbs = Thrown.
Proof.
  intros H. unfold run, materialHandler, createDiffusion. cbn [In] in H.
  destruct (Z.eqb_spec dim 0) as [->|_]; [exfalso; apply H; auto|]. destruct (Z.eqb_spec dim 1) as [->|_]; [exfalso; apply H; auto|].
  destruct (Z.eqb_spec dim 2) as [->|_]; [exfalso; apply H; auto|]. destruct (Z.eqb_spec dim 3) as [->|_]; [exfalso; apply H; auto|]. reflexivity.
Qed.
Example c84_dimension_ok : ~ In (-1)%Z [0; 1; 2; 3]%Z /\ ~ In 4%Z [0; 1; 2; 3]%Z.
Proof. split; cbn [In]; lia. Qed.

(** * What does not hold *)
(** Asked for with another material than W100, or in another dimension than one, the thermal
    diffusion changes nothing, and nothing is said. *)
Theorem c84_soret_refuted m net threshold dim diff advec gbs : m <> W100 \/ dim <> 1%Z ->
  run m net threshold dim diff advec true gbs = run m net threshold dim diff advec false gbs.
Proof.
  intros H. unfold run, materialHandler. destruct (createDiffusion diff dim); try reflexivity. destruct (TokenModel.grainBoundaries dim gbs); try reflexivity.
  unfold setup. cbn [driftOn soretOn difOn]. destruct (dim =? 0)%Z; [reflexivity|]. destruct (drifts _ _); try reflexivity.
  destruct (Z.eqb_spec dim 1); cbn [andb]; [|reflexivity]. destruct H as [H|H]; [|contradiction]. destruct m; try reflexivity. contradiction.
Qed.
(** A grain boundary in a material which is not tungsten: a null pointer is followed. *)
Theorem c84_grain_refuted m net threshold dim diff advec soret gbs place places : psi net = false -> In m [Fe; Fuel; Alloy; AlphaZr] ->
  In dim [1; 2; 3]%Z -> TokenModel.grainBoundaries dim gbs = Done (place :: places) -> run m net threshold dim diff advec soret gbs = Undefined.
Proof.
  intros Hn Hm Hd Hg. unfold run, materialHandler.
  assert (Cd : createDiffusion diff dim = Done diff) by (unfold createDiffusion; destruct diff; [|reflexivity]; cbn [In] in Hd; destruct Hd as [<-|[<-|[<-|[]]]]; reflexivity).
  rewrite Cd, Hg. unfold setup.
  assert (D0 : (dim =? 0)%Z = false) by (cbn [In] in Hd; destruct Hd as [<-|[<-|[<-|[]]]]; reflexivity). rewrite D0. cbn [driftOn map drifts].
  assert (N : (if advec then surfaceTable m else None) = None) by (destruct advec; [|reflexivity]; cbn [In] in Hm; destruct Hm as [<-|[<-|[<-|[<-|[]]]]]; reflexivity).
  rewrite N. unfold driftInit. now rewrite Hn.
Qed.
(** The migration threshold stops the diffusion of a cluster, not its drift nor its thermal
    diffusion: below every migration energy, nothing diffuses and helium still drifts. *)
Theorem c84_threshold_refuted m net threshold gbs : tungsten net -> sevenHelium net -> moves net (He, 1%nat, 0) ->
  TokenModel.grainBoundaries 1 gbs = Done [] -> (forall i, threshold < migration net i) -> In m [W100; W110; W111; W211] ->
  exists mv first rest, run m net threshold 1 true true true gbs = Done mv /\ byDiffusion mv = [] /\ byDrift mv = first :: rest /\ clusters first <> [].
Proof.
  intros Hn H7 Hm Hg Ht Hw. destruct (@c84_run m net threshold 1%Z true true true gbs [] Hn H7 (or_introl eq_refl) Hg) as [mv [E [_ [Dif [[first [rest [Er [Lf _]]]] _]]]]].
  exists mv, first, rest. repeat split; auto.
  - destruct (byDiffusion mv) as [|i l]; [reflexivity|]. destruct (proj1 (Dif i) (or_introl eq_refl)) as [_ [_ [_ Q]]]. specialize (Ht i). lra.
  - intros C. destruct Lf as [L [_ [f [Hf F]]]]. rewrite C in F. cbn in F.
    assert (exists r, In (He, 1%nat, r) (surface m)) as [r Hr] by (cbn [In] in Hw; destruct Hw as [<-|[<-|[<-|[<-|[]]]]]; eexists; left; reflexivity).
    assert (f (He, 1%nat, r) = true) by (apply Hf; [assumption|exact Hm]).
    assert (Q : In (He, 1%nat, r) (filter f (surface m))) by (apply filter_In; auto). inversion F as [N|]. rewrite <- N in Q. contradiction.
Qed.

(** A network with helium up to 8, the vacancy and the interstitial alone; helium [still] does
    not diffuse, and helium 8 and the vacancy have migration energies above 1. *)
Definition demo (still : nat) : network :=
  Net true [He; V; I]
    (fun c => match c with
              | [n; 0; 0] => if (Nat.leb 1 n && Nat.leb n 8)%bool then Some (n - 1) else None
              | [0; 1; 0] => Some 8
              | [0; 0; 1] => Some 9
              | _ => None
              end)%nat
    10 (fun i => if Nat.eqb i (still - 1) then 0 else 10 ^ 10) (fun i => if Nat.ltb i 7 then 13 / 100 else 13 / 10).
Lemma demo_tungsten k : tungsten (demo k).
Proof. split; [reflexivity|]. right; right; right; left. reflexivity. Qed.
Lemma demo_seven k : sevenHelium (demo k).
Proof. intros [|[|[|[|[|[|[|[|n]]]]]]]] H; try lia; discriminate. Qed.
Lemma demo_equal0 : equal 0 0 = true.
Proof. unfold equal. rewrite Rminus_0_r, Rabs_R0. destruct (Rlt_dec _ _) as [|n]; [reflexivity|]. exfalso. apply n. apply Rinv_0_lt_compat, pow_lt. lra. Qed.
Lemma demo_equal1 : equal (10 ^ 10) 0 = false.
Proof. apply equal_big. simpl. lra. Qed.

Example c84_drift_ok : tungsten (demo 3) /\ pairs (Lists [4%nat] [1] []) = [] /\ sevenHelium (demo 3) /\
  driftInit (demo 3) grainTable (Lists [4%nat] [1] []) =
    Done (Lists [0; 1; 3; 4; 5; 6]%nat (map (fun x => x / 100000) [54; 101; 393; 724; 1082; 1926]) [(0, 0); (1, 1); (3, 3); (4, 4); (5, 5); (6, 6)]%nat).
Proof.
  split; [apply demo_tungsten|]. split; [reflexivity|]. split; [apply demo_seven|].
  rewrite driftInit_eq; [|apply demo_tungsten|].
  - unfold isMobile, present, idOf. cbn -[equal Rdiv IZR pow]. rewrite demo_equal0, demo_equal1. reflexivity.
  - intros [|[|[|[|[|[|[|[|i]]]]]]]] H; try lia; cbn [Nat.sub nth grainTable]; apply equal_big; lra.
Qed.
Example c84_thermal_ok : tungsten (demo 3) /\ exists h', soretInit (demo 3) empty = Done h' /\ clusters h' = [0; 1; 3; 9; 8]%nat /\ strengths h' = map (fun x => x / 10000) [65; 110; 566; 128; 490].
Proof.
  split; [apply demo_tungsten|]. unfold soretInit, soretAdd, zeros, has. cbn -[equal Rdiv IZR pow]. rewrite demo_equal0, demo_equal1. cbn -[Rdiv IZR]. eexists. repeat split.
Qed.
(** Initialised again after the network has changed: the list of the factors is not cleared, and
    the clusters have the factors of others. *)
Theorem c84_factors_refuted : exists net net' h h' a, tungsten net /\ tungsten net' /\ soretInit net empty = Done h /\ soretInit net' h = Done h' /\
  nth_error (clusters h') 0 = Some a /\ find net' (alone (specs net') He 2) = Some a /\ nth 0 (strengths h') 0 = 65 / 10000 /\ nth 0 (strengths h') 0 <> 0.011.
Proof.
  exists (demo 3), (demo 1). do 3 eexists. split; [apply demo_tungsten|]. split; [apply demo_tungsten|].
  unfold soretInit, soretAdd, zeros, has. cbn -[equal Rdiv IZR pow]. rewrite demo_equal0, demo_equal1. cbn -[Rdiv IZR equal pow]. split; [reflexivity|].
  cbn -[Rdiv IZR]. split; [reflexivity|]. split; [reflexivity|]. split; [reflexivity|]. split; [reflexivity|cbn; lra].
Qed.
Definition gbs0 := TokenModel.tokens (TokenModel.t " "%string) (TokenModel.t "X 3.0"%string).
Example c84_run_ok : tungsten (demo 3) /\ sevenHelium (demo 3) /\ In 1%Z [1; 2; 3]%Z /\ TokenModel.grainBoundaries 1 gbs0 = Done [(TokenModel.DX, TokenModel.t "3.0"%string)] /\
  exists mv, run W111 (demo 3) 1 1 true true true gbs0 = Done mv /\ (forall i, In i (byDiffusion mv) <-> In i [0; 1; 3; 4; 5; 6]%nat) /\ length (byDrift mv) = 2%nat /\ clusters (bySoret mv) = [].
Proof.
  split; [apply demo_tungsten|]. split; [apply demo_seven|]. split; [left; reflexivity|]. split; [reflexivity|].
  destruct (@c84_run W111 (demo 3) 1 1%Z true true true gbs0 [(TokenModel.DX, TokenModel.t "3.0"%string)] (demo_tungsten 3) (demo_seven 3) (or_introl eq_refl) eq_refl) as [mv [E [S [Hd [[f [r [Er [_ [Lr _]]]]] Ls]]]]].
  exists mv. split; [exact E|]. split; [|split].
  2:{ rewrite Er. cbn [length]. now rewrite Lr. }
  2:{ destruct Ls as [L [_ [f' [_ F]]]]. cbn in F. destruct (clusters (bySoret mv)), (strengths (bySoret mv)); try reflexivity; try discriminate. inversion F. }
  intros i. rewrite (Hd i). cbn [numClusters demo factor migration].
  assert (Q : / 2 ^ 52 <= Rabs (10 ^ 10)) by (apply equal_spec, demo_equal1). assert (Z0 : ~ / 2 ^ 52 <= Rabs 0) by (intros C; apply equal_spec in C; rewrite demo_equal0 in C; discriminate).
  do 10 (destruct i as [|i]; [cbn [Nat.eqb Nat.ltb Nat.leb Nat.sub In]; split; [intros [_ [_ [G1 G2]]]; try (exfalso; tauto); try lra; tauto|intros G; repeat split; try lia; try assumption; try lra; exfalso; lia]|]).
  split; [intros [_ [G _]]; lia|intros G; cbn [In] in G; lia].
Qed.
Example c84_still_ok : TokenModel.grainBoundaries 0 gbs0 = Done [(TokenModel.DX, TokenModel.t "3.0"%string)].
Proof. reflexivity. Qed.
(** A network with helium up to 3 only. *)
Definition small : network := Net true [He; D; V; I] (fun c => match c with [n; 0; 0; 0] => if (Nat.leb 1 n && Nat.leb n 3)%bool then Some (n - 1) else None | _ => None end)%nat 3 (fun _ => 1) (fun _ => 1).
Example c84_missing_ok : tungsten small /\ ~ sevenHelium small /\ In 2%Z [1; 2; 3]%Z /\ TokenModel.grainBoundaries 2 gbs0 = Done [(TokenModel.DX, TokenModel.t "3.0"%string)] /\ run W100 small 1 2 true false false gbs0 = Thrown.
Proof.
  assert (A : tungsten small) by (split; [reflexivity|]; right; left; reflexivity).
  assert (B : ~ sevenHelium small) by (intros H; apply (H 4%nat ltac:(lia)); reflexivity).
  split; [exact A|]. split; [exact B|]. split; [right; left; reflexivity|]. split; [reflexivity|].
  apply c84_missing with (places := [(TokenModel.DX, TokenModel.t "3.0"%string)]); auto; [right; left; reflexivity|right; discriminate].
Qed.
Example c84_threshold_ok : tungsten (demo 3) /\ sevenHelium (demo 3) /\ moves (demo 3) (He, 1%nat, 0) /\ TokenModel.grainBoundaries 1 [] = Done [] /\ (forall i, 1 / 10 < migration (demo 3) i).
Proof.
  split; [apply demo_tungsten|]. split; [apply demo_seven|]. split.
  - split; [left; reflexivity|]. exists 0%nat. split; [reflexivity|]. apply equal_spec, demo_equal1.
  - split; [reflexivity|]. intros i. cbn [migration demo]. destruct (Nat.ltb i 7); lra.
Qed.
Definition iron : network := Net false [He; V; I] (fun _ => None) 0 (fun _ => 1) (fun _ => 1).
Example c84_grain_ok : psi iron = false /\ TokenModel.grainBoundaries 1 gbs0 = Done [(TokenModel.DX, TokenModel.t "3.0"%string)] /\ run Fe iron 1 1 true false false gbs0 = Undefined.
Proof. split; [reflexivity|]. split; [reflexivity|]. apply c84_grain_refuted with (place := (TokenModel.DX, TokenModel.t "3.0"%string)) (places := []); cbn; auto. Qed.

Print Assumptions c84_drift.
Print Assumptions c84_thermal.
Print Assumptions c84_thermal_again.
Print Assumptions c84_run.
Print Assumptions c84_still.
Print Assumptions c84_missing.
Print Assumptions c84_dimension.
Print Assumptions c84_soret_refuted.
Print Assumptions c84_grain_refuted.
Print Assumptions c84_threshold_refuted.
Print Assumptions c84_factors_refuted.
