(** C85: a coupled run has the sources and the state of the whole network. *)
From Verif Require TokenModel.
From Verif Require Import SourceModel OutputModel FileModel CoupleModel.
From Verif Require LatticeModel Properties_File Properties_Output Properties_Source.
From Coq Require Import Bool Lra Lia Permutation.
Open Scope R_scope.

(** ** Options *)
(** Zirconium: every parameter which is not zero is in exactly one sub-network, and nothing else is. *)
Theorem c85_zr_options p : exists is,
  NoDup is /\ (forall i, In i is <-> nth i p 0 <> 0)%nat /\
  Forall2 (fun i q => length q = length p /\ nth i q 0 = nth i p 0 /\ forall k, k <> i -> nth k q 0 = 0)%nat is (zrSubOptions p).
Proof.
  exists (filter (fun i => negb (Nat.eqb (nth i p 0%nat) 0)) (seq 0 (length p))). split; [apply NoDup_filter, seq_NoDup|]. split.
  - intros i. rewrite filter_In, in_seq. destruct (Nat.eqb_spec (nth i p 0%nat) 0) as [E|E]; cbn; [split; [intros [_ H]; discriminate|intros H; congruence]|].
    split; [intros _; exact E|]. intros _. split; [|reflexivity]. destruct (Nat.lt_ge_cases i (length p)); [lia|]. rewrite nth_overflow in E by lia. congruence.
  - unfold zrSubOptions. assert (H : forall i, In i (seq 0 (length p)) -> (i < length p)%nat) by (intros i Hi; apply in_seq in Hi; lia).
    revert H. generalize (seq 0 (length p)) at 1 2 4. intros l. induction l as [|i l IH]; intros H; cbn [filter flat_map]; [constructor|].
    assert (I := IH (fun k Hk => H k (or_intror Hk))). specialize (H i (or_introl eq_refl)).
    destruct (Nat.eqb_spec (nth i p 0%nat) 0) as [E|E]; cbn [negb app]; [exact I|]. constructor; [|exact I].
    set (g := fun k => if Nat.eqb k i then nth i p 0%nat else 0%nat).
    assert (N : forall k, (k < length p)%nat -> nth k (map g (seq 0 (length p))) 0%nat = g k).
    { intros k Hk. rewrite (nth_indep _ 0%nat (g 0%nat)) by (rewrite map_length, seq_length; exact Hk). rewrite map_nth, seq_nth by exact Hk. reflexivity. }
    split; [rewrite map_length, seq_length; reflexivity|]. split.
    + rewrite N by exact H. unfold g. rewrite Nat.eqb_refl. reflexivity.
    + intros k Hk. destruct (Nat.lt_ge_cases k (length p)) as [L|L].
      * rewrite N by exact L. unfold g. destruct (Nat.eqb_spec k i); [contradiction|reflexivity].
      * apply nth_overflow. rewrite map_length, seq_length. exact L.
Qed.
Example c85_zr_options_ok : zrSubOptions [50; 0; 0; 100; 30]%nat = [[50; 0; 0; 0; 0]; [0; 0; 0; 100; 0]; [0; 0; 0; 0; 30]]%nat.
Proof. reflexivity. Qed.
Print Assumptions c85_zr_options.

(** A parameter which is none of the three, for instance a sixth one, gives a sub-network without clusters: the initialisation of its
    sources reads the first entry of a vector without entries. *)
Theorem c85_zr_sixth_refuted b v i x prim net portion map_ : (0 < x)%nat ->
  In [0; 0; 0; 0; 0; x]%nat (zrSubOptions [b; 0; 0; v; i; x]%nat) /\ zrCoupled prim net [0; 0; 0; 0; 0; x]%nat portion map_ = None.
Proof.
  intros Hx. split; [|reflexivity]. unfold zrSubOptions. apply in_flat_map. exists 5%nat. split; [apply in_seq; cbn; lia|]. cbn [nth]. destruct (Nat.eqb_spec x 0); [lia|]. left. reflexivity.
Qed.
Print Assumptions c85_zr_sixth_refuted.

(** The limits which are taken from the parameters are those of the options (C55). *)
Theorem c85_limits p l : networkParameters p = Some l <->
  exists pureV, TokenModel.setNetworkParameters (map Z.of_nat p) = TokenModel.Done
    (TokenModel.Net (Z.of_nat (maxImpurity l)) (Z.of_nat (maxD l)) (Z.of_nat (maxT l)) (Z.of_nat (maxV l)) (Z.of_nat (maxI l)) pureV).
Proof.
  assert (B : forall a b c d e a' b' c' d' e', Some (Limits a b c d e) = Some (Limits a' b' c' d' e') <-> (Z.of_nat a, Z.of_nat b, Z.of_nat c, Z.of_nat d, Z.of_nat e) = (Z.of_nat a', Z.of_nat b', Z.of_nat c', Z.of_nat d', Z.of_nat e')).
  { intros. split; intros H; inversion H; subst; try reflexivity. repeat match goal with E : Z.of_nat _ = Z.of_nat _ |- _ => apply Nat2Z.inj in E; subst end. reflexivity. }
  destruct l as [a' b' c' d' e']. cbn [maxImpurity maxD maxT maxV maxI].
  destruct p as [|a [|b [|c [|d [|e r]]]]]; cbn [networkParameters]; try (split; [discriminate|intros (x & E); discriminate]).
  - split.
    + intros H. injection H as <- <- <- <- <-. exists 20%Z. reflexivity.
    + intros (x & E). change (TokenModel.setNetworkParameters (map Z.of_nat [a])) with (TokenModel.Done (TokenModel.Net (Z.of_nat a) (Z.of_nat 0) (Z.of_nat 0) (Z.of_nat 20) (Z.of_nat 6) 20)) in E. apply B. congruence.
  - split.
    + intros H. injection H as <- <- <- <- <-. destruct r as [|f r]; eexists; reflexivity.
    + intros (x & E). apply B. destruct r as [|f r]; [cbn [map] in E; unfold TokenModel.setNetworkParameters in E; cbn -[Z.of_nat] in E; congruence|]. cbn -[Z.of_nat] in E. congruence.
Qed.
Example c85_limits_ok : networkParameters [50]%nat = Some (Limits 50 0 0 20 6) /\ networkParameters [200; 30; 0; 4; 5]%nat = Some (Limits 200 30 0 4 5).
Proof. split; reflexivity. Qed.
Print Assumptions c85_limits.

(** Alloys: with vacancies and interstitials there are two sub-networks; the lattice of the one has the vacancies, voids and faulted loops of
    the whole, that of the other the interstitials, perfect and Frank loops. *)
Theorem c85_alloy_options size void c v i r w s o : (0 < v)%nat -> (0 < i)%nat ->
  LatticeModel.adapt w (Z.of_nat size) = Some s -> LatticeModel.adapt w (Z.of_nat void) = Some o -> (1 < w)%Z ->
  let lat q := match networkParameters q with
               | Some l => LatticeModel.alloyLattice (Z.of_nat (maxV l)) (Z.of_nat (maxI l)) (Z.of_nat (maxImpurity l)) (Z.of_nat (maxD l)) w
               | None => None end in
  exists qV qI aV aO aF aI aP aK, alloySubOptions (size :: void :: c :: v :: i :: r) = Some [qV; qI] /\
    lat (size :: void :: c :: v :: i :: r) = Some [aV; aO; aF; aI; aP; aK] /\
    lat qV = Some [aV; aO; aF; (0, 1); (0, 1); (0, 1)]%Z /\ lat qI = Some [(0, 1); (0, 1); (0, 1); aI; aP; aK]%Z /\
    qV = (size :: void :: 0 :: v :: 0 :: r)%nat /\ qI = (size :: 0 :: 0 :: 0 :: i :: r)%nat.
Proof.
  intros Hv Hi Es Eo Hw lat. cbn [alloySubOptions]. destruct (Nat.eqb_spec v 0); [lia|]. destruct (Nat.eqb_spec i 0); [lia|]. cbn [app].
  do 8 eexists. split; [reflexivity|]. unfold lat. cbn [networkParameters maxV maxI maxImpurity maxD]. unfold LatticeModel.alloyLattice. rewrite Es, Eo.
  assert (E0 : LatticeModel.adapt w (Z.of_nat 0) = Some 0%Z).
  { unfold LatticeModel.adapt. cbn [LatticeModel.rounds]. rewrite Z.pow_0_r. reflexivity. }
  rewrite E0. destruct (Z.eqb_spec (Z.of_nat v) 0); [lia|]. destruct (Z.eqb_spec (Z.of_nat i) 0); [lia|]. change (Z.of_nat 0 =? 0)%Z with true. cbn iota. repeat split; reflexivity.
Qed.
Example c85_alloy_options_ok : alloySubOptions [200; 30; 0; 4; 5]%nat = Some [[200; 30; 0; 4; 0]; [200; 0; 0; 0; 5]]%nat /\
  LatticeModel.adapt 2 (Z.of_nat 200) = Some 255%Z /\ LatticeModel.adapt 2 (Z.of_nat 30) = Some 31%Z.
Proof. repeat split; reflexivity. Qed.
Print Assumptions c85_alloy_options.
(** Without vacancies and interstitials there is no sub-network, and the first of them is used. *)
Theorem c85_none_refuted size void c r temperatures depths A (rates : R -> R -> (nat -> R) -> nat -> A) from :
  alloySubOptions (size :: void :: c :: 0 :: 0 :: r)%nat = Some [] /\ stepRates [] from rates temperatures depths [] = None.
Proof. split; reflexivity. Qed.
Print Assumptions c85_none_refuted.

(** ** Sources *)
(** What the primary handler gives to a sub-network: every source once, at the index of the cluster in the sub-network, if no cluster has
    two sources. *)
Lemma find_key (l : list (nat * R)) k r : NoDup (map fst l) -> In (k, r) l -> find (fun s => Nat.eqb k (fst s)) l = Some (k, r).
Proof.
  induction l as [|[a b] l IH]; intros N I; [destruct I|]. cbn [find fst]. cbn in N. inversion_clear N as [|? ? N1 N2]. destruct I as [E|I].
  - inversion E; subst. rewrite Nat.eqb_refl. reflexivity.
  - destruct (Nat.eqb_spec k a) as [->|]; [|apply IH; assumption]. exfalso. apply N1. apply in_map_iff. exists (a, r). auto.
Qed.
Lemma flux_in map_ src i r : In (i, r) (getImplantedFlux map_ src) -> (i < length map_)%nat /\ In (nth i map_ 0%nat, r) src.
Proof.
  unfold getImplantedFlux. rewrite in_flat_map. intros (x & Hx & H). apply in_seq in Hx. destruct (find _ src) as [[a b]|] eqn:E; [|destruct H].
  destruct H as [H|[]]. inversion H; subst. split; [lia|]. apply find_some in E. destruct E as [I E]. apply Nat.eqb_eq in E. cbn in E. cbn [snd]. rewrite E. exact I.
Qed.
Lemma flux_keys map_ src : NoDup (map fst (getImplantedFlux map_ src)).
Proof.
  unfold getImplantedFlux. assert (G : forall l, NoDup l -> NoDup (map fst (flat_map (fun i => match find (fun s => Nat.eqb (nth i map_ 0%nat) (fst s)) src with Some s => [(i, snd s)] | None => [] end) l)) /\
    forall k, In k (map fst (flat_map (fun i => match find (fun s => Nat.eqb (nth i map_ 0%nat) (fst s)) src with Some s => [(i, snd s)] | None => [] end) l)) -> In k l).
  { induction l as [|i l IH]; intros N; cbn [flat_map map]; [split; [constructor|intros ? []]|]. inversion_clear N as [|? ? N1 N2]. destruct (IH N2) as [A B].
    destruct (find _ src) as [s|]; cbn [app map fst]; [|split; [exact A|intros k Hk; right; auto]]. split; [constructor; [intros H; apply N1, B, H|exact A]|]. intros k [<-|Hk]; [left; reflexivity|right; auto]. }
  apply G, seq_NoDup.
Qed.
Lemma NoDup_fst (l : list (nat * R)) : NoDup (map fst l) -> NoDup l.
Proof. apply NoDup_map_inv. Qed.
Theorem c85_transfer map_ src own : NoDup map_ -> NoDup (map fst src) -> NoDup (map fst own) ->
  (forall k r, In (k, r) own -> (k < length map_)%nat /\ In (nth k map_ 0%nat, r) src) ->
  (forall k r, (k < length map_)%nat -> In (nth k map_ 0%nat, r) src -> In k (map fst own)) ->
  Permutation (getImplantedFlux map_ src) own.
Proof.
  intros Nm Ns No H1 H2. apply NoDup_Permutation; [apply NoDup_fst, flux_keys|apply NoDup_fst, No|]. intros [k r]. split.
  - intros H. destruct (flux_in _ _ _ _ H) as [L I]. assert (K := H2 k r L I). apply in_map_iff in K. destruct K as ([k' r'] & E & K). cbn in E. subst k'.
    destruct (H1 k r' K) as [_ I']. assert (r = r'); [|subst; exact K].
    assert (F1 := find_key _ _ _ Ns I). assert (F2 := find_key _ _ _ Ns I'). congruence.
  - intros H. destruct (H1 k r H) as [L I]. unfold getImplantedFlux. apply in_flat_map. exists k. split; [apply in_seq; lia|]. rewrite (find_key _ _ _ Ns I). left. reflexivity.
Qed.
Example c85_transfer_ok : getImplantedFlux [4; 2; 7]%nat [(2%nat, 5); (3%nat, 6); (4%nat, 8)] = [(0%nat, 8); (1%nat, 5)].
Proof. reflexivity. Qed.
Print Assumptions c85_transfer.

(** *** Zirconium *)
(** The sub-network has the clusters of the whole, up to the largest sizes which it was given. *)
Definition zrSame (prim : zrNet) (q : list nat) (s : zrNet * list nat) : Prop :=
  match networkParameters q with
  | Some l =>
      (forall n, (1 <= n <= maxI l)%nat -> option_map (fun k => nth k (snd s) 0%nat) (zrI (fst s) n) = zrI prim n) /\
      (forall n, (1 <= n <= maxV l)%nat -> option_map (fun k => nth k (snd s) 0%nat) (zrV (fst s) n) = zrV prim n) /\
      (forall n, (1 <= n <= maxImpurity l)%nat -> option_map (fun k => nth k (snd s) 0%nat) (zrB (fst s) n) = zrB prim n)
  | None => False
  end.
Definition there (map_ : list nat) (rows : list (nat * R)) : list (nat * R) := map (fun r => (nth (fst r) map_ 0%nat, snd r)) rows.
Lemma zr_loop_there find find' map_ max table value value' : (forall n, (1 <= n <= max)%nat -> option_map (fun k => nth k map_ 0%nat) (find n) = find' n) ->
  (forall n f, (1 <= n <= max)%nat -> value n f = value' n f) -> there map_ (zrLoop find max table value) = zrLoop find' max table value'.
Proof.
  intros H V. unfold zrLoop, there. assert (B : forall n, In n (seq 1 (Nat.min max (length table))) -> (1 <= n <= max)%nat) by (intros n Hn; apply in_seq in Hn; lia).
  revert B. generalize (seq 1 (Nat.min max (length table))). induction l as [|n l IH]; intros B; [reflexivity|]. cbn [flat_map]. rewrite map_app, IH by (intros; apply B; right; assumption). f_equal.
  rewrite <- H, V by (apply B; left; reflexivity). destruct (find n); reflexivity.
Qed.
Lemma zr_some prim net q portion map_ rows : zrCoupled prim net q portion map_ = Some rows ->
  exists l, networkParameters q = Some l /\ rows = zrInit net (maxI l) (maxV l) (maxImpurity l) portion [].
Proof.
  unfold zrCoupled. destruct (networkParameters q) as [l|]; [|discriminate]. unfold zrInitialize. cbn [host]. destruct (zrInit net _ _ _ _ _) as [|x st] eqn:E; [discriminate|].
  cbn [zrSetImplantedFlux device]. intros H. injection H as <-. exists l. split; [reflexivity|]. symmetry. exact E.
Qed.
Lemma zr_empty find table value : zrLoop find 0 table value = [].
Proof. reflexivity. Qed.
(** No basal pyramids from the cascades: the sub-networks together have the sources of the whole network, in the clusters which are the same. *)
Theorem c85_zr b v i portion prim subs rows : (b <= 18)%nat \/ portion = 0 ->
  let p := [b; 0; 0; v; i]%nat in
  Forall2 (zrSame prim) (zrSubOptions p) subs ->
  Forall2 (fun qs r => zrCoupled (zrInit prim i v b portion []) (fst (snd qs)) (fst qs) portion (snd (snd qs)) = Some r) (combine (zrSubOptions p) subs) rows ->
  Permutation (concat (map (fun sr => there (snd (fst sr)) (snd sr)) (combine subs rows))) (zrInit prim i v b portion []).
Proof.
  intros Q p HS HR. set (P := zrInit prim i v b portion []) in *.
  assert (Q0 : basalShare b portion = 0) by (unfold basalShare; destruct Q as [Q| ->]; [destruct (Nat.ltb_spec 18 b); [lia|reflexivity]|destruct (18 <? b)%nat; reflexivity]).
  assert (G : forall qs, Forall2 (zrSame prim) qs subs -> Forall2 (fun qs r => zrCoupled P (fst (snd qs)) (fst qs) portion (snd (snd qs)) = Some r) (combine qs subs) rows ->
    concat (map (fun sr => there (snd (fst sr)) (snd sr)) (combine subs rows)) =
    concat (map (fun q => match networkParameters q with Some l => zrInit prim (maxI l) (maxV l) (maxImpurity l) portion [] | None => [] end) qs)).
  { clear HS HR. intros qs HS. revert rows. induction HS as [|q s qs subs H HS IH]; intros rows HR; [reflexivity|]. cbn [combine] in HR. inversion HR as [|? r ? rows' E HR']; subst. cbn [combine map concat fst snd].
    rewrite (IH _ HR'). f_equal. cbn [fst snd] in E. destruct (zr_some _ _ _ _ _ _ E) as (l & El & ->). unfold zrSame in H. rewrite El in H |- *. destruct H as (HI & HV & HB).
    unfold zrInit. cbn [app]. unfold there. rewrite !map_app. fold (there (snd s) (zrLoop (zrI (fst s)) (maxI l) fluxI (fun _ f => f))).
    f_equal; [apply zr_loop_there; auto|]. f_equal; apply zr_loop_there; auto. }
  rewrite (G _ HS HR). clear G HS HR.
  assert (S : (zrSubOptions p = (if Nat.eqb b 0 then [] else [[b; 0; 0; 0; 0]]) ++ (if Nat.eqb v 0 then [] else [[0; 0; 0; v; 0]]) ++ (if Nat.eqb i 0 then [] else [[0; 0; 0; 0; i]]))%nat).
  { unfold zrSubOptions, p. cbn [length seq flat_map nth Nat.eqb map app]. rewrite app_nil_r. reflexivity. }
  assert (EB : concat (map (fun q => match networkParameters q with Some l => zrInit prim (maxI l) (maxV l) (maxImpurity l) portion [] | None => [] end) (if Nat.eqb b 0 then [] else [[b; 0; 0; 0; 0]%nat])) =
    zrLoop (zrB prim) b fluxV (fun n f => if (18 <? n)%nat then f * 0 else 0.0)).
  { destruct (Nat.eqb_spec b 0) as [->|]; [reflexivity|]. cbn [map concat networkParameters maxI maxV maxImpurity]. unfold zrInit. rewrite Q0, app_nil_r. reflexivity. }
  assert (EV : concat (map (fun q => match networkParameters q with Some l => zrInit prim (maxI l) (maxV l) (maxImpurity l) portion [] | None => [] end) (if Nat.eqb v 0 then [] else [[0; 0; 0; v; 0]%nat])) =
    zrLoop (zrV prim) v fluxV (fun n f => if (18 <? n)%nat then f * (1 - 0) else f)).
  { destruct (Nat.eqb_spec v 0) as [->|]; [reflexivity|]. cbn [map concat networkParameters maxI maxV maxImpurity]. unfold zrInit. cbn [app]. rewrite !zr_empty, !app_nil_r. reflexivity. }
  assert (EI : concat (map (fun q => match networkParameters q with Some l => zrInit prim (maxI l) (maxV l) (maxImpurity l) portion [] | None => [] end) (if Nat.eqb i 0 then [] else [[0; 0; 0; 0; i]%nat])) =
    zrLoop (zrI prim) i fluxI (fun _ f => f)).
  { destruct (Nat.eqb_spec i 0) as [->|]; [reflexivity|]. cbn [map concat networkParameters maxI maxV maxImpurity]. unfold zrInit. cbn [app]. rewrite !zr_empty, !app_nil_r. reflexivity. }
  rewrite S, !map_app, !concat_app, EB, EV, EI. unfold P, zrInit. rewrite Q0. cbn [app].
  set (X := zrLoop (zrI prim) _ _ _). set (Y := zrLoop (zrV prim) _ _ _). set (Z := zrLoop (zrB prim) _ _ _).
  transitivity ((Y ++ X) ++ Z); [apply Permutation_app_comm|]. rewrite app_assoc. apply Permutation_app_tail, Permutation_app_comm.
Qed.
Example c85_zr_ok :
  let prim := ZrNet (fun n => if (n <=? 2)%nat then Some (n + 1)%nat else None) (fun n => if (n <=? 2)%nat then Some (n - 1)%nat else None) (fun _ => None) in
  let sub := ZrNet (fun n => if (n <=? 2)%nat then Some (n - 1)%nat else None) (fun n => if (n <=? 2)%nat then Some (n - 1)%nat else None) (fun _ => None) in
  let subs := [(sub, [0; 1]%nat); (sub, [2; 3]%nat)] in
  zrSubOptions [0; 0; 0; 2; 2]%nat = [[0; 0; 0; 2; 0]; [0; 0; 0; 0; 2]]%nat /\ Forall2 (zrSame prim) (zrSubOptions [0; 0; 0; 2; 2]%nat) subs /\
  length (zrInit prim 2 2 0 0.5 []) = 4%nat /\
  exists rows, Forall2 (fun qs r => zrCoupled (zrInit prim 2 2 0 0.5 []) (fst (snd qs)) (fst qs) 0.5 (snd (snd qs)) = Some r) (combine (zrSubOptions [0; 0; 0; 2; 2]%nat) subs) rows.
Proof.
  cbv zeta. split; [reflexivity|]. split; [|split; [reflexivity|]].
  - unfold zrSubOptions. cbn [length seq flat_map nth Nat.eqb map app]. constructor; [|constructor; [|constructor]]; unfold zrSame; cbn [networkParameters maxI maxV maxImpurity fst snd zrI zrV zrB];
      repeat split; intros n H; try lia; destruct n as [|[|[|n]]]; try lia; reflexivity.
  - eexists. constructor; [reflexivity|constructor; [reflexivity|constructor]].
Qed.
Print Assumptions c85_zr.
(** A sub-network is not initialised if it has none of the clusters which the cascades make. *)
Theorem c85_zr_some prim net b v i portion map_ :
  zrCoupled prim net [b; 0; 0; v; i]%nat portion map_ <> None <->
  exists n, (1 <= n <= 43 /\ n <= i /\ zrI net n <> None \/ 1 <= n <= 66 /\ n <= v /\ zrV net n <> None \/ 1 <= n <= 66 /\ n <= b /\ zrB net n <> None)%nat.
Proof.
  unfold zrCoupled. cbn [networkParameters]. unfold zrInitialize. cbn [host maxI maxV maxImpurity].
  assert (L : forall find max table value, zrLoop find max table value <> [] <-> exists n, (1 <= n <= length table /\ n <= max)%nat /\ find n <> None).
  { intros find max table value. unfold zrLoop. split.
    - intros H. destruct (flat_map _ _) as [|x l] eqn:E; [congruence|]. assert (I : In x (x :: l)) by (left; reflexivity). rewrite <- E in I. apply in_flat_map in I. destruct I as (n & Hn & I).
      apply in_seq in Hn. exists n. split; [lia|]. intros C. rewrite C in I. destruct I.
    - intros (n & Hn & F) C. destruct (find n) as [k|] eqn:Ef; [|congruence].
      assert (I : In (k, value n (nth (n - 1) table 0)) (flat_map (fun i => match find i with Some id => [(id, value i (nth (i - 1) table 0))] | None => [] end) (seq 1 (Nat.min max (length table))))).
      { apply in_flat_map. exists n. split; [apply in_seq; lia|]. rewrite Ef. left. reflexivity. }
      rewrite C in I. destruct I. }
  assert (LI := L (zrI net) i fluxI (fun _ f => f)). assert (LV := L (zrV net) v fluxV (fun n f => if (18 <? n)%nat then f * (1 - basalShare b portion) else f)).
  assert (LB := L (zrB net) b fluxV (fun n f => if (18 <? n)%nat then f * basalShare b portion else 0.0)). change (length fluxI) with 43%nat in LI. change (length fluxV) with 66%nat in LV, LB.
  unfold zrInit. cbn [app]. destruct (zrLoop (zrI net) _ _ _) as [|x X]; cbn [app].
  - destruct (zrLoop (zrV net) _ _ _) as [|y Y]; cbn [app].
    + destruct (zrLoop (zrB net) _ _ _) as [|z Z].
      * split; [congruence|]. intros (n & [H|[H|H]]); exfalso.
        -- apply (proj2 LI); [exists n; tauto|reflexivity].
        -- apply (proj2 LV); [exists n; tauto|reflexivity].
        -- apply (proj2 LB); [exists n; tauto|reflexivity].
      * split; [intros _|intros _; discriminate]. destruct (proj1 LB ltac:(discriminate)) as (n & Hn). exists n. tauto.
    + split; [intros _|intros _; discriminate]. destruct (proj1 LV ltac:(discriminate)) as (n & Hn). exists n. tauto.
  - split; [intros _|intros _; discriminate]. destruct (proj1 LI ltac:(discriminate)) as (n & Hn). exists n. tauto.
Qed.
Print Assumptions c85_zr_some.

(** With basal pyramids: the sub-network of the vacancies does not know of them and keeps the whole of the source of the clusters
    from 19 on, of which the sub-network of the pyramids has its portion as well. Shown for 19. *)
Theorem c85_zr_basal_refuted prim netV netB b v i portion mapV mapB rowsV rowsB k kb : (18 < b)%nat -> (18 < v)%nat ->
  zrV netV 19 = Some k -> zrV prim 19 = Some (nth k mapV 0%nat) -> zrB netB 19 = Some kb -> zrB prim 19 = Some (nth kb mapB 0%nat) ->
  zrCoupled (zrInit prim i v b portion []) netV [0; 0; 0; v; 0]%nat portion mapV = Some rowsV ->
  zrCoupled (zrInit prim i v b portion []) netB [b; 0; 0; 0; 0]%nat portion mapB = Some rowsB ->
  exists f, 0 < f /\ In (nth k mapV 0%nat, f * (1 - portion)) (zrInit prim i v b portion []) /\ In (nth kb mapB 0%nat, f * portion) (zrInit prim i v b portion []) /\
    In (k, f) rowsV /\ In (kb, f * portion) rowsB.
Proof.
  intros Hb Hv E1 E2 E3 E4 RV RB. exists 4.196949035263e-10. split; [lra|].
  destruct (zr_some _ _ _ _ _ _ RV) as (l & El & ->). cbn in El. injection El as <-. destruct (zr_some _ _ _ _ _ _ RB) as (l & El & ->). cbn in El. injection El as <-. cbn [maxI maxV maxImpurity].
  assert (In19 : forall m, (18 < m)%nat -> In 19%nat (seq 1 (Nat.min m (length fluxV)))) by (intros m Hm; apply in_seq; change (length fluxV) with 66%nat; lia).
  assert (LV : forall net m B id, (18 < m)%nat -> zrV net 19 = Some id -> In (id, 4.196949035263e-10 * (1 - B)) (zrLoop (zrV net) m fluxV (fun n f => if (18 <? n)%nat then f * (1 - B) else f))).
  { intros net m B id Hm E. unfold zrLoop. apply in_flat_map. exists 19%nat. split; [apply In19, Hm|]. rewrite E. left. reflexivity. }
  assert (LB : forall net m B id, (18 < m)%nat -> zrB net 19 = Some id -> In (id, 4.196949035263e-10 * B) (zrLoop (zrB net) m fluxV (fun n f => if (18 <? n)%nat then f * B else 0.0))).
  { intros net m B id Hm E. unfold zrLoop. apply in_flat_map. exists 19%nat. split; [apply In19, Hm|]. rewrite E. left. reflexivity. }
  assert (Q : basalShare b portion = portion) by (unfold basalShare; destruct (Nat.ltb_spec 18 b); [reflexivity|lia]).
  unfold zrInit. rewrite Q. change (basalShare 0 portion) with 0. cbn [app]. rewrite !in_app_iff. repeat split.
  - right. left. apply LV; assumption.
  - right. right. apply LB; assumption.
  - right. left. replace 4.196949035263e-10 with (4.196949035263e-10 * (1 - 0)) at 1 by ring. apply LV; assumption.
  - right. right. apply LB; assumption.
Qed.
Print Assumptions c85_zr_basal_refuted.

(** *** Alloys *)
(** The two halves of the network: the clusters of interstitials and those of vacancies, which are those of the whole. *)
Record halves (prim subI subV : alloyNet) (mI mV : list nat) : Prop := Halves {
  hI : forall n, option_map (fun k => nth k mI 0%nat) (findI subI n) = findI prim n;
  hFr : forall n, option_map (fun k => nth k mI 0%nat) (findFrank subI n) = findFrank prim n;
  hP : forall n, option_map (fun k => nth k mI 0%nat) (findPerfect subI n) = findPerfect prim n;
  hV : forall n, option_map (fun k => nth k mV 0%nat) (findV subV n) = findV prim n;
  hFa : forall n, option_map (fun k => nth k mV 0%nat) (findFaulted subV n) = findFaulted prim n;
  hNone : forall n, findV subI n = None /\ findFaulted subI n = None /\ findI subV n = None /\ findFrank subV n = None /\ findPerfect subV n = None;
  hBound : forall n k, (findI subI n = Some k \/ findFrank subI n = Some k \/ findPerfect subI n = Some k -> (k < length mI)%nat) /\
                       (findV subV n = Some k \/ findFaulted subV n = Some k -> (k < length mV)%nat) }.
Definition thereRows (map_ : list nat) (rows : list (nat * list R)) : list (nat * list R) := map (fun r => (nth (fst r) map_ 0%nat, snd r)) rows.

Lemma cascade_halves prim subI subV mI mV grid amplitude : halves prim subI subV mI mV -> forall L P, cascadeLoop prim grid amplitude L = Some P ->
  exists SI SV, cascadeLoop subI grid amplitude L = Some SI /\ cascadeLoop subV grid amplitude L = Some SV /\ Permutation (thereRows mI SI ++ thereRows mV SV) P /\
    (forall r, In r SI -> (fst r < length mI)%nat) /\ (forall r, In r SV -> (fst r < length mV)%nat).
Proof.
  intros H. induction L as [|[n fr] L IH]; intros P E.
  - injection E as <-. exists [], []. repeat split; auto; intros ? [].
  - cbn [cascadeLoop] in E. destruct (cascadeStep prim grid amplitude n fr) as [a|] eqn:Ea; [|discriminate]. destruct (cascadeLoop prim grid amplitude L) as [P'|]; [|discriminate]. injection E as <-.
    destruct (IH P' eq_refl) as (SI & SV & E1 & E2 & Pm & B1 & B2). cbn [cascadeLoop]. rewrite E1, E2. unfold cascadeStep in Ea |- *.
    destruct (hNone _ _ _ _ _ H n) as (N1 & N2 & N3 & N4 & N5). destruct (hNone _ _ _ _ _ H (- n)%Z) as (M1 & M2 & M3 & M4 & M5). rewrite N3, N4, M1, M2.
    assert (App : forall X Y, thereRows X (Y ++ SI) = thereRows X Y ++ thereRows X SI) by (intros; apply map_app).
    destruct (0 <? n)%Z.
    + rewrite <- (hI _ _ _ _ _ H n), <- (hFr _ _ _ _ _ H n), <- (hP _ _ _ _ _ H n) in Ea.
      destruct (findI subI n) as [k|] eqn:F1; cbn [option_map] in Ea.
      { injection Ea as <-. do 2 eexists. split; [reflexivity|]. split; [reflexivity|]. cbn [app thereRows map fst snd]. split; [constructor; exact Pm|]. split; [|exact B2].
        intros r [<-|Hr]; [|auto]. apply (hBound _ _ _ _ _ H n). left. exact F1. }
      destruct (findFrank subI n) as [f|] eqn:F2, (findPerfect subI n) as [q|] eqn:F3; cbn [option_map] in Ea; injection Ea as <-; do 2 eexists; (split; [reflexivity|]); (split; [reflexivity|]); cbn [app thereRows map fst snd];
        try (split; [exact Pm|split; assumption]).
      split; [do 2 constructor; exact Pm|]. split; [|exact B2]. intros r [<-|[<-|Hr]]; [| |auto]; apply (hBound _ _ _ _ _ H n); tauto.
    + destruct (n <? 0)%Z; [|discriminate].
      rewrite <- (hV _ _ _ _ _ H (- n)%Z), <- (hFa _ _ _ _ _ H (- n)%Z) in Ea.
      destruct (findV subV (- n)%Z) as [k|] eqn:F1; cbn [option_map] in Ea.
      { injection Ea as <-. do 2 eexists. split; [reflexivity|]. split; [reflexivity|]. cbn [app thereRows map fst snd]. split; [|split; [exact B1|]].
        - apply Permutation_sym, Permutation_cons_app, Permutation_sym. exact Pm.
        - intros r [<-|Hr]; [|auto]. apply (hBound _ _ _ _ _ H (- n)%Z). left. exact F1. }
      destruct (findFaulted subV (- n)%Z) as [k|] eqn:F2; cbn [option_map] in Ea; injection Ea as <-; do 2 eexists; (split; [reflexivity|]); (split; [reflexivity|]); cbn [app thereRows map fst snd].
      * split; [|split; [exact B1|]].
        -- apply Permutation_sym, Permutation_cons_app, Permutation_sym. exact Pm.
        -- intros r [<-|Hr]; [|auto]. apply (hBound _ _ _ _ _ H (- n)%Z). right. exact F2.
      * split; [exact Pm|split; assumption].
Qed.
Lemma rows_one net amplitude : forall L P, cascadeLoop net [] amplitude L = Some P -> forall r, In r P -> exists x, snd r = [x].
Proof.
  induction L as [|[n fr] L IH]; intros P E r Hr; cbn [cascadeLoop] in E; [injection E as <-; destruct Hr|].
  destruct (cascadeStep net [] amplitude n fr) as [a|] eqn:Ea; [|discriminate]. destruct (cascadeLoop net [] amplitude L) as [P'|]; [|discriminate]. injection E as <-. apply in_app_iff in Hr. destruct Hr as [Hr|Hr]; [|eapply IH; eauto].
  unfold cascadeStep in Ea. cbn [setGeneration] in Ea. destruct (0 <? n)%Z; [|destruct (n <? 0)%Z; [|discriminate]];
    repeat match type of Ea with match ?x with _ => _ end = _ => destruct x end; inversion Ea; subst; cbn [In] in Hr;
    repeat (destruct Hr as [<-|Hr]; [eexists; reflexivity|]); destruct Hr.
Qed.
Definition column0 (rows : list (nat * list R)) : list (nat * R) := map (fun r => (fst r, nth 0 (snd r) 0)) rows.
Lemma coupled_one P S map_ : NoDup map_ -> NoDup (map fst P) -> (forall r, In r S -> exists x, snd r = [x]) -> NoDup (map fst S) ->
  (forall r, In r S -> (fst r < length map_)%nat /\ In (nth (fst r) map_ 0%nat, snd r) P) ->
  (forall k, (k < length map_)%nat -> In (nth k map_ 0%nat) (map fst P) -> In k (map fst S)) ->
  exists rows, alloyCoupled P S map_ = Some rows /\ Permutation rows S.
Proof.
  intros Nm NP S1 NS H1 H2. unfold alloyCoupled. fold (column0 P). set (F := getImplantedFlux map_ (column0 P)).
  assert (K : forall l, map fst (column0 l) = map fst l) by (intros l; unfold column0; rewrite map_map; reflexivity).
  assert (Pm : Permutation F (column0 S)).
  { apply c85_transfer; [exact Nm|rewrite K; exact NP|rewrite K; exact NS| |].
    - intros k x Hx. unfold column0 in Hx. apply in_map_iff in Hx. destruct Hx as (r & E & Hr). inversion E; subst. destruct (H1 r Hr) as [L I]. split; [exact L|]. unfold column0. apply in_map_iff.
      exists (nth (fst r) map_ 0%nat, snd r). split; [reflexivity|exact I].
    - intros k x L I. rewrite K. apply H2; [exact L|]. rewrite <- K. apply in_map_iff. eexists. split; [|exact I]. reflexivity. }
  assert (Len : length F = length S) by (rewrite (Permutation_length Pm); unfold column0; apply map_length).
  unfold alloySetImplantedFlux. rewrite Len, Nat.eqb_refl. eexists. split; [reflexivity|].
  assert (E : map (fun fr : (nat * R) * (nat * list R) => (fst (fst fr), match snd (snd fr) with [] => [] | _ :: t => snd (fst fr) :: t end)) (combine F S) = map (fun f => (fst f, [snd f])) F).
  { clear -Len S1. revert S Len S1. induction F as [|f F IH]; intros [|r S] Len S1; try discriminate; [reflexivity|]. cbn [combine map fst snd]. destruct (S1 r (or_introl eq_refl)) as [x ->]. f_equal.
    apply IH; [cbn in Len; lia|]. intros r' Hr'. apply S1. right. exact Hr'. }
  rewrite E, Pm. unfold column0. rewrite map_map. clear -S1. induction S as [|[k l] S IH]; [reflexivity|]. cbn [map fst snd]. destruct (S1 _ (or_introl eq_refl)) as [x Ex]. cbn in Ex. subst l. constructor.
  apply IH. intros r Hr. apply S1. right. exact Hr.
Qed.
Lemma nth_inj (l : list nat) i j : NoDup l -> (i < length l)%nat -> (j < length l)%nat -> nth i l 0%nat = nth j l 0%nat -> i = j.
Proof. intros N Hi Hj E. apply (proj1 (NoDup_nth l 0%nat) N); assumption. Qed.
Lemma NoDup_app_parts A (l l' : list A) : NoDup (l ++ l') -> NoDup l /\ NoDup l' /\ forall x, In x l -> In x l' -> False.
Proof.
  induction l as [|a l IH]; cbn; intros N; [repeat split; auto; constructor|]. inversion_clear N as [|? ? N1 N2]. destruct (IH N2) as (A1 & A2 & A3). repeat split; [constructor; [rewrite in_app_iff in N1; tauto|exact A1]|exact A2|].
  intros x [->|Hx] Hx'; [apply N1, in_app_iff; tauto|eauto].
Qed.
(** Without depth, and if no two sizes of the cascades are in the same cluster (no groups of them): the sub-networks have
    the sources of the whole network, in the clusters which are the same. *)
Theorem c85_alloy prim subI subV mI mV amplitude P : halves prim subI subV mI mV -> NoDup (mI ++ mV) ->
  damages prim [] amplitude = Some P -> NoDup (map fst P) ->
  exists SI SV RI RV, damages subI [] amplitude = Some SI /\ damages subV [] amplitude = Some SV /\
    alloyCoupled P SI mI = Some RI /\ alloyCoupled P SV mV = Some RV /\ Permutation (thereRows mI RI ++ thereRows mV RV) P.
Proof.
  intros H N E NP. unfold damages in *. destruct (cascade_halves _ _ _ _ _ _ _ H _ _ E) as (SI & SV & E1 & E2 & Pm & B1 & B2). exists SI, SV.
  destruct (NoDup_app_parts _ _ _ N) as (N1 & N2 & D).
  assert (NK : NoDup (map fst (thereRows mI SI) ++ map fst (thereRows mV SV))).
  { rewrite <- map_app. eapply Permutation_NoDup; [apply Permutation_map, Permutation_sym, Pm|exact NP]. }
  destruct (NoDup_app_parts _ _ _ NK) as (NI & NV & _).
  assert (K : forall m l, map fst (thereRows m l) = map (fun k => nth k m 0%nat) (map fst l)) by (intros m l; unfold thereRows; rewrite !map_map; reflexivity).
  rewrite K in NI, NV. apply NoDup_map_inv in NI. apply NoDup_map_inv in NV.
  assert (InP : forall x, In x (map fst P) -> (exists k, In k (map fst SI) /\ x = nth k mI 0%nat) \/ (exists k, In k (map fst SV) /\ x = nth k mV 0%nat)).
  { intros x Hx. apply (Permutation_in _ (Permutation_map fst (Permutation_sym Pm))) in Hx. rewrite map_app, !K, in_app_iff in Hx. destruct Hx as [Hx|Hx]; apply in_map_iff in Hx; destruct Hx as (k & <- & Hk); [left|right]; exists k; auto. }
  assert (LI : forall k, In k (map fst SI) -> (k < length mI)%nat) by (intros k Hk; apply in_map_iff in Hk; destruct Hk as (r & <- & Hr); auto).
  assert (LV : forall k, In k (map fst SV) -> (k < length mV)%nat) by (intros k Hk; apply in_map_iff in Hk; destruct Hk as (r & <- & Hr); auto).
  destruct (coupled_one P SI mI N1 NP) as (RI & C1 & P1).
  { eapply rows_one; eauto. } { exact NI. }
  { intros r Hr. split; [auto|]. apply (Permutation_in _ Pm). apply in_app_iff. left. unfold thereRows. apply in_map_iff. exists r. auto. }
  { intros k Hk I. destruct (InP _ I) as [(k' & I' & E')|(k' & I' & E')]; [rewrite (nth_inj mI k k'); auto|]. exfalso. apply (D (nth k mI 0%nat)); [apply nth_In, Hk|]. rewrite E'. apply nth_In. auto. }
  destruct (coupled_one P SV mV N2 NP) as (RV & C2 & P2).
  { eapply rows_one; eauto. } { exact NV. }
  { intros r Hr. split; [auto|]. apply (Permutation_in _ Pm). apply in_app_iff. right. unfold thereRows. apply in_map_iff. exists r. auto. }
  { intros k Hk I. destruct (InP _ I) as [(k' & I' & E')|(k' & I' & E')]; [|rewrite (nth_inj mV k k'); auto]. exfalso. apply (D (nth k' mI 0%nat)); [apply nth_In; auto|]. rewrite <- E'. apply nth_In. exact Hk. }
  exists RI, RV. repeat split; auto. rewrite <- Pm. apply Permutation_app; unfold thereRows; apply Permutation_map; assumption.
Qed.
(** Three sizes of interstitials, of which the third is a loop, and two of vacancies. *)
Example c85_alloy_ok :
  let at_ n k := fun x => if Z.eqb x n then Some k else None in
  let two k := fun x => if Z.eqb x 1 then Some k else if Z.eqb x 2 then Some (k + 1)%nat else None in
  let no := fun _ : Z => @None nat in
  let prim := AlloyNet (two 2%nat) (at_ 3%Z 6%nat) (at_ 3%Z 4%nat) (two 0%nat) (at_ 3%Z 5%nat) in
  let subI := AlloyNet (two 0%nat) (at_ 3%Z 3%nat) (at_ 3%Z 2%nat) no no in
  let subV := AlloyNet no no no (two 0%nat) (at_ 3%Z 2%nat) in
  halves prim subI subV [2; 3; 4; 6]%nat [0; 1; 5]%nat /\ NoDup ([2; 3; 4; 6] ++ [0; 1; 5])%nat /\
  exists P, damages prim [] 1 = Some P /\ map fst P = [6; 4; 3; 2; 0; 1; 5]%nat.
Proof.
  cbv zeta. split; [|split].
  - assert (D : forall n : Z, n = 1%Z \/ n = 2%Z \/ n = 3%Z \/ ((n =? 1) = false /\ (n =? 2) = false /\ (n =? 3) = false)%Z).
    { intros n. destruct (Z.eqb_spec n 1); [auto|]. destruct (Z.eqb_spec n 2); [auto|]. destruct (Z.eqb_spec n 3); auto 6. }
    constructor; cbn [findI findFrank findPerfect findV findFaulted]; intros n; try (destruct (D n) as [->|[->|[->|(X & Y & Z)]]]; [reflexivity..|rewrite ?X, ?Y, ?Z; reflexivity]).
    + repeat split.
    + intros k. destruct (D n) as [->|[->|[->|(X & Y & Z)]]]; [cbn; split; intros W; repeat (destruct W as [W|W]); inversion W; subst; lia..|].
      rewrite X, Y, Z. split; intros W; repeat (destruct W as [W|W]); discriminate.
  - repeat constructor; cbn; intuition discriminate.
  - eexists. split; [reflexivity|]. reflexivity.
Qed.
Print Assumptions c85_alloy.

(** Two sizes of the cascades in one cluster, as in any group of sizes: the number of sources which are given is smaller than that of the
    sub-network, and the run ends with an exception. *)
Theorem c85_alloy_group_refuted prim rows map_ :
  (forall k, (k < length map_)%nat -> In (nth k map_ 0%nat) (map fst prim) -> In k (map fst rows)) -> ~ NoDup (map fst rows) -> alloyCoupled prim rows map_ = None.
Proof.
  intros H N. unfold alloyCoupled, alloySetImplantedFlux. set (F := getImplantedFlux _ _). destruct (Nat.eqb_spec (length F) (length rows)) as [E|]; [|reflexivity]. exfalso. apply N.
  apply (NoDup_incl_NoDup (l := map fst F)); [apply flux_keys|rewrite !map_length; lia|]. intros k Hk. apply in_map_iff in Hk. destruct Hk as ([k' r] & <- & Hk). apply flux_in in Hk. destruct Hk as [L I]. cbn [fst]. apply H; [exact L|].
  apply in_map_iff in I. destruct I as (s & Es & Hs). inversion Es. apply in_map_iff. exists s. auto.
Qed.
(** Interstitials up to 5 by size, loops of 6 to 45 in groups: the sources of the loops come together. *)
Example c85_alloy_group_refuted_ok :
  let net := AlloyNet (fun n => if ((1 <=? n) && (n <=? 5))%Z then Some (Z.to_nat n) else None) (fun n => if ((6 <=? n) && (n <=? 45))%Z then Some 6%nat else None)
    (fun n => if ((6 <=? n) && (n <=? 45))%Z then Some 7%nat else None) (fun _ => None) (fun _ => None) in
  exists P, damages net [] 1 = Some P /\ length P = 85%nat /\ alloyCoupled P P (seq 0 8) = None.
Proof.
  cbv zeta. eexists. split; [reflexivity|]. split; [reflexivity|]. reflexivity.
Qed.
Print Assumptions c85_alloy_group_refuted.
(** With depth: only the indices and the column of the surface are replaced, the rest of a row stays where it was. The rows of the sub-network are in the
    order of the cascades, from large to small clusters, the given ones in the order of the network, so that a cluster gets the source of
    another one. Interstitials up to 45 in the order of their sizes: single ones get the source of those of 45, which is none. *)
Definition line45 : alloyNet := AlloyNet (fun n => if ((1 <=? n) && (n <=? 45))%Z then Some (Z.to_nat (n - 1)) else None) (fun _ => None) (fun _ => None) (fun _ => None) (fun _ => None).
Lemma line45_damages grid amplitude : damages line45 grid amplitude = Some (map (fun n => ((n - 1)%nat, setGeneration grid amplitude 1.0 (Z.of_nat n) [Properties_Source.share n])) (rev (seq 1 45))).
Proof. reflexivity. Qed.
Theorem c85_alloy_line_refuted grid amplitude : (5 <= length grid)%nat -> 0 < amplitude ->
  exists P D V W, damages line45 [] amplitude = Some P /\ damages line45 grid amplitude = Some D /\
    Forall2 (fun d r => fst r = fst d /\ viewRow grid 0 (snd d) = Some (snd r)) D V /\ alloyCoupled P V (seq 0 45) = Some W /\
    Rsum (filter (fun c => Nat.eqb (fst c) 0) (alloyAt V 1 1 0)) snd = 0.35 * 0.15 * 85.7 * amplitude /\
    Rsum (filter (fun c => Nat.eqb (fst c) 0) (alloyAt W 1 1 0)) snd = 0.
Proof.
  intros HG HA. set (D := map (fun n => ((n - 1)%nat, setGeneration grid amplitude 1.0 (Z.of_nat n) [Properties_Source.share n])) (rev (seq 1 45))).
  set (pad := fun l : list R => l ++ repeat 0 (length grid - 0 + 1 - length l)).
  assert (VR : forall n, viewRow grid 0 (setGeneration grid amplitude 1.0 (Z.of_nat n) [Properties_Source.share n]) = Some (pad (setGeneration grid amplitude 1.0 (Z.of_nat n) [Properties_Source.share n]))).
  { intros n. unfold viewRow, pad. assert (L : length (setGeneration grid amplitude 1.0 (Z.of_nat n) [Properties_Source.share n]) = (length grid - 2)%nat).
    { unfold setGeneration. destruct grid as [|g grid]; [cbn in HG; lia|]. set (q := length (g :: grid)) in *. cbn [length]. rewrite app_length, map_length, seq_length. cbn [length]. lia. }
    rewrite L. destruct grid as [|g grid]; [cbn in HG; lia|]. set (q := length (g :: grid)) in *. destruct (Nat.leb_spec (q - 2) (q - 0 + 1)); [reflexivity|lia]. }
  set (V := map (fun n => ((n - 1)%nat, pad (setGeneration grid amplitude 1.0 (Z.of_nat n) [Properties_Source.share n]))) (rev (seq 1 45))).
  assert (HV : Forall2 (fun d r => fst r = fst d /\ viewRow grid 0 (snd d) = Some (snd r)) D V).
  { unfold D, V. generalize (rev (seq 1 45)). induction l as [|n l IH]; [constructor|]. constructor; [|exact IH]. split; [reflexivity|]. apply VR. }
  assert (At1 : forall n, exists a t, pad (setGeneration grid amplitude 1.0 (Z.of_nat n) [Properties_Source.share n]) = a :: Properties_Source.displaced amplitude * Properties_Source.share n * 1.0 / IZR (Z.of_nat n) :: t).
  { intros n. assert (PL : Properties_Source.place grid 1) by (right; lia). assert (S := Properties_Source.set_at grid 1 amplitude 1.0 (Z.of_nat n) (Properties_Source.share n) PL).
    assert (L : (2 <= length (setGeneration grid amplitude 1.0 (Z.of_nat n) [Properties_Source.share n]))%nat).
    { unfold setGeneration. destruct grid as [|g grid]; [cbn in HG; lia|]. set (q := length (g :: grid)) in *. cbn [length]. rewrite app_length, map_length, seq_length. cbn [length]. lia. }
    destruct (setGeneration grid amplitude 1.0 (Z.of_nat n) [Properties_Source.share n]) as [|a [|b t]]; cbn [length] in L; try lia. cbn [nth] in S. subst b. exists a. eexists. unfold pad. reflexivity. }
  destruct (At1 45%nat) as (a & t & E45). destruct (At1 1%nat) as (a' & t' & Eq1).
  exists (map (fun n => ((n - 1)%nat, setGeneration [] amplitude 1.0 (Z.of_nat n) [Properties_Source.share n])) (rev (seq 1 45))), D, V.
  eexists. split; [apply line45_damages|]. split; [apply line45_damages|]. split; [exact HV|]. split; [reflexivity|]. split.
  - unfold V. cbn [seq rev app map alloyAt fst snd filter Nat.eqb Nat.sub Rsum]. rewrite Eq1. cbn [nth]. unfold Properties_Source.displaced. change (Properties_Source.share 1) with 0.350. change (IZR (Z.of_nat 1)) with 1. unfold Rdiv. rewrite Rinv_1. lra.
  - unfold V. cbn [seq rev app map combine alloyAt fst snd filter Nat.eqb Nat.sub Rsum getImplantedFlux flat_map length nth find]. rewrite E45. cbn [nth].
    change (Properties_Source.share 45) with 0.000. unfold Rdiv. lra.
Qed.
Print Assumptions c85_alloy_line_refuted.

(** ** Concentrations *)
(** What the solver hands out of an unknown: nothing below 1e-16. *)
Definition seen (v : R) : R := if Rlt_dec 1e-16 (Rabs v) then v else 0.
Lemma sub_fold n (keep : R -> bool) sol : forall a s, length s = n ->
  let s' := fold_left (fun s p => if (fst p <? n)%nat then setEntry s (fst p) (snd p) else s) (filter (fun lv => keep (snd lv)) (combine (seq a (length sol)) sol)) s in
  length s' = n /\ forall k, nth k s' 0 = if (k <? n)%nat && (a <=? k)%nat && (k <? a + length sol)%nat && keep (nth (k - a) sol 0) then nth (k - a) sol 0 else nth k s 0.
Proof.
  induction sol as [|v sol IH]; intros a s L; cbv zeta.
  - cbn [length seq combine filter fold_left]. split; [exact L|]. intros k. destruct (Nat.leb_spec a k), (Nat.ltb_spec k (a + 0)); try lia; rewrite ?andb_false_r; cbn [andb]; rewrite ?andb_false_r; reflexivity.
  - cbn [length seq combine filter snd].
    set (s0 := if keep v then (if (a <? n)%nat then setEntry s a v else s) else s).
    assert (L0 : length s0 = n) by (unfold s0; destruct (keep v), (a <? n)%nat; rewrite ?Properties_File.setEntry_length; exact L).
    assert (E : fold_left (fun s p => if (fst p <? n)%nat then setEntry s (fst p) (snd p) else s) (if keep v then (a, v) :: filter (fun lv => keep (snd lv)) (combine (seq (S a) (length sol)) sol) else filter (fun lv => keep (snd lv)) (combine (seq (S a) (length sol)) sol)) s =
      fold_left (fun s p => if (fst p <? n)%nat then setEntry s (fst p) (snd p) else s) (filter (fun lv => keep (snd lv)) (combine (seq (S a) (length sol)) sol)) s0) by (unfold s0; destruct (keep v); reflexivity).
    rewrite E. destruct (IH (S a) s0 L0) as [I1 I2]. split; [exact I1|]. intros k. rewrite I2. clear I1 I2 E.
    assert (N0 : nth k s0 0 = if Nat.eqb k a && (k <? n)%nat && keep v then v else nth k s 0).
    { unfold s0. destruct (Nat.eqb_spec k a) as [->|Hk]; cbn [andb]; destruct (keep v); [|rewrite andb_false_r; reflexivity| |reflexivity].
      - destruct (Nat.ltb_spec a n); cbn [andb]; [|reflexivity]. rewrite Properties_File.setEntry_nth by lia. rewrite Nat.eqb_refl. reflexivity.
      - destruct (Nat.ltb_spec a n); [|reflexivity]. rewrite Properties_File.setEntry_nth by lia. destruct (Nat.eqb_spec k a); [contradiction|reflexivity]. }
    rewrite N0. clear N0. destruct (Nat.eqb_spec k a) as [->|Hk].
    + replace (S a <=? a)%nat with false by (symmetry; apply Nat.leb_gt; lia). rewrite andb_false_r. cbn [andb]. rewrite Nat.leb_refl, Nat.sub_diag. cbn [nth].
      replace (a <? a + S (length sol))%nat with true by (symmetry; apply Nat.ltb_lt; lia). rewrite !andb_true_r. reflexivity.
    + cbn [andb]. replace (S a + length sol)%nat with (a + S (length sol))%nat by lia.
      destruct (Nat.leb_spec a k) as [Hle|Hle]; [|destruct (Nat.leb_spec (S a) k); [lia|]; rewrite !andb_false_r; reflexivity].
      destruct (Nat.leb_spec (S a) k) as [Hlt|Hlt]; [|lia]. replace (k - a)%nat with (S (k - S a)) by lia. cbn [nth]. reflexivity.
Qed.
Lemma nth_zero n k : nth k (repeat 0 n) 0 = 0.
Proof. revert k. induction n as [|n IH]; intros [|k]; cbn; auto. Qed.
Lemma sub_seen nC i sol : length (subConc nC i (exportPoint sol)) = nth i nC 0%nat /\ forall k, (k < nth i nC 0)%nat -> nth k (subConc nC i (exportPoint sol)) 0 = seen (nth k sol 0).
Proof.
  unfold subConc, exportPoint. destruct (sub_fold (nth i nC 0%nat) (fun v => if Rlt_dec cutoff (Rabs v) then true else false) sol 0 (repeat 0 (nth i nC 0%nat)) (repeat_length _ _)) as [A B].
  split; [exact A|]. intros k Hk. rewrite B. destruct (Nat.ltb_spec k (nth i nC 0%nat)); [|lia]. change (0 <=? k)%nat with true. rewrite Nat.sub_0_r, nth_zero. cbn [andb Nat.add]. unfold seen, cutoff.
  destruct (Nat.ltb_spec k (length sol)) as [L|L]; cbn [andb]; [destruct (Rlt_dec 1e-16 (Rabs (nth k sol 0))); reflexivity|]. rewrite nth_overflow by exact L. destruct (Rlt_dec 1e-16 (Rabs 0)); reflexivity.
Qed.
Lemma sub_all nC i sol : length (subConc nC i (combine (seq 0 (length sol)) sol)) = nth i nC 0%nat /\ forall k, (k < nth i nC 0)%nat -> nth k (subConc nC i (combine (seq 0 (length sol)) sol)) 0 = nth k sol 0.
Proof.
  unfold subConc. destruct (sub_fold (nth i nC 0%nat) (fun v => true) sol 0 (repeat 0 (nth i nC 0%nat)) (repeat_length _ _)) as [A B].
  assert (F : forall l : list (nat * R), filter (fun lv => true) l = l) by (induction l; cbn; congruence). rewrite F in A, B. split; [exact A|]. intros k Hk. rewrite B.
  destruct (Nat.ltb_spec k (nth i nC 0%nat)); [|lia]. change (0 <=? k)%nat with true. rewrite Nat.sub_0_r, nth_zero. cbn [andb Nat.add].
  destruct (Nat.ltb_spec k (length sol)) as [L|L]; cbn [andb]; [reflexivity|]. rewrite nth_overflow by exact L. reflexivity.
Qed.
(** The vector of the whole network: the clusters of every sub-network where they are in the whole, nothing anywhere else. *)
Definition assembled (nC : list nat) (from : nat -> nat -> nat) (value : nat -> nat -> R) (f : nat -> R) : Prop :=
  (forall i k, (i < length nC)%nat -> (k < nth i nC 0)%nat -> f (from i k) = value i k) /\
  forall x, (forall i k, (i < length nC)%nat -> (k < nth i nC 0)%nat -> from i k <> x) -> f x = 0.
Definition apart (nC : list nat) (from : nat -> nat -> nat) : Prop := forall i k i' k', (i < length nC)%nat -> (k < nth i nC 0)%nat -> (i' < length nC)%nat -> (k' < nth i' nC 0)%nat ->
  from i k = from i' k' -> i = i' /\ k = k'.
Lemma allSome_all A (l : list (option A)) (ys : list A) : Forall2 (fun o y => o = Some y) l ys -> allSome l = Some ys.
Proof. induction 1 as [|o y l ys E H IH]; [reflexivity|]. cbn [allSome]. rewrite E, IH. reflexivity. Qed.
Lemma Forall2_seq A (f : nat -> option A) (g : nat -> A) n : forall a, (forall j, (a <= j < a + n)%nat -> f j = Some (g j)) -> Forall2 (fun o y => o = Some y) (map f (seq a n)) (map g (seq a n)).
Proof. induction n as [|n IH]; intros a H; [constructor|]. cbn [seq map]. constructor; [apply H; lia|]. apply IH. intros j Hj. apply H. lia. Qed.
Lemma nth_map_seq0 A (g : nat -> A) n j d : (j < n)%nat -> nth j (map g (seq 0 n)) d = g j.
Proof. intros H. rewrite (nth_indep _ d (g 0%nat)) by (rewrite map_length, seq_length; exact H). rewrite map_nth, seq_nth by exact H. reflexivity. Qed.
Lemma full_assembled nC from (parts : nat -> list R) value : apart nC from ->
  (forall i, (i < length nC)%nat -> length (parts i) = nth i nC 0%nat /\ forall k, (k < nth i nC 0)%nat -> nth k (parts i) 0 = value i k) ->
  assembled nC from value (fullConc from (map parts (seq 0 (length nC)))).
Proof.
  intros HA HP. set (conc := map parts (seq 0 (length nC))). assert (L : length conc = length nC) by (unfold conc; rewrite map_length, seq_length; reflexivity).
  assert (N : forall i, (i < length nC)%nat -> nth i conc [] = parts i) by (intros i Hi; apply nth_map_seq0; exact Hi).
  assert (NL : forall i, (i < length nC)%nat -> length (nth i conc []) = nth i nC 0%nat) by (intros i Hi; rewrite N by exact Hi; apply HP; exact Hi).
  destruct (Properties_Output.c82_full from conc) as [F1 F2].
  { rewrite L. intros i j i' j' H1 H2 H3 H4. rewrite NL in H2, H4 by assumption. apply HA; assumption. }
  split.
  - intros i k Hi Hk. rewrite F1; [|rewrite L; exact Hi|rewrite NL by exact Hi; exact Hk]. rewrite N by exact Hi. apply HP; assumption.
  - intros x Hx. apply F2. rewrite L. intros i j Hi Hj. rewrite NL in Hj by exact Hi. apply Hx; assumption.
Qed.
(** One dimension. [sols]: for every sub-network and grid point the unknowns, clusters first. Every grid point of every sub-network is given the
    rates of its own temperature, depth and concentrations, under the index which counts the point outside of the surface as well. *)
Theorem c85_line A (rates : R -> R -> (nat -> R) -> nat -> A) nC from n T D (sols : list (list (list R))) :
  apart nC from -> (0 < length nC)%nat -> length sols = length nC -> (forall s, In s sols -> length s = n) -> length T = (n + 2)%nat -> length D = (n + 2)%nat ->
  exists rs, stepRates nC from rates T D (map getConcVector sols) = Some rs /\ length rs = (n * length nC)%nat /\
    forall j i, (j < n)%nat -> (i < length nC)%nat -> exists f, nth_error rs (j * length nC + i) = Some (i, S j, rates (nth (S j) T 0) (nth (S j) D 0) f i) /\
      assembled nC from (fun i k => seen (nth k (nth j (nth i sols []) []) 0)) f.
Proof.
  intros HA H0 HL Hn HT HD. unfold stepRates, getSubInstanceData. destruct (map getConcVector sols) as [|c cs] eqn:EC; [destruct sols; [cbn in HL; lia|discriminate]|]. rewrite <- EC. clear c cs EC. rewrite map_length, HL.
  assert (HP : points T = n) by (unfold points; rewrite HT; destruct (Nat.ltb_spec (n + 2) 2); lia). rewrite HP.
  set (part := fun j i => subConc nC i (exportPoint (nth j (nth i sols []) []))).
  rewrite (allSome_all _ _ (map (fun j => map (part j) (seq 0 (length nC))) (seq 0 n))).
  2: { apply Forall2_seq. intros j Hj. apply allSome_all, Forall2_seq. intros i Hi. unfold part.
       assert (E : nth i (map getConcVector sols) [] = getConcVector (nth i sols [])) by (change [] with (getConcVector []) at 1; apply map_nth). rewrite E. unfold getConcVector. rewrite nth_error_map.
       assert (Li : length (nth i sols []) = n) by (apply Hn, nth_In; lia). rewrite (nth_error_nth' (nth i sols []) []) by lia. reflexivity. }
  set (data := map (fun j => map (part j) (seq 0 (length nC))) (seq 0 n)). assert (LD : length data = n) by (unfold data; rewrite map_length, seq_length; reflexivity).
  assert (ND : forall j, (j < n)%nat -> nth_error data j = Some (map (part j) (seq 0 (length nC)))).
  { intros j Hj. unfold data. rewrite nth_error_map. assert (Q : nth_error (seq 0 n) j = Some j) by (rewrite (nth_error_nth' _ 0%nat) by (rewrite seq_length; exact Hj); rewrite seq_nth by exact Hj; reflexivity). rewrite Q. reflexivity. }
  rewrite HT. replace (n + 2 <? 2)%nat with false by (symmetry; apply Nat.ltb_ge; lia). replace (n + 2 - 2)%nat with n by lia.
  set (full := fun j => fullConc from (map (part j) (seq 0 (length nC)))).
  set (block := fun j => map (fun i => (i, S j, rates (nth (S j) T 0) (nth (S j) D 0) (full j) i)) (seq 0 (length nC))).
  rewrite map_map, (allSome_all _ _ (map block (seq 0 n))).
  2: { apply Forall2_seq. intros j Hj. unfold updateTemperaturesAndRates. rewrite (nth_error_nth' T 0) by lia. rewrite (nth_error_nth' D 0) by lia.
       assert (Q : (if Nat.eqb (length data) 1 then nth_error data 0 else nth_error data j) = Some (map (part j) (seq 0 (length nC)))).
       { rewrite LD. destruct (Nat.eqb_spec n 1) as [->|]; [assert (j = 0%nat) by lia; subst j|]; apply ND; lia. }
       rewrite Q. reflexivity. }
  cbn [option_map]. eexists. split; [reflexivity|].
  assert (LB : forall j, length (block j) = length nC) by (intros j; unfold block; rewrite map_length, seq_length; reflexivity).
  assert (CL : forall l, length (concat (map block l)) = (length l * length nC)%nat) by (induction l as [|x l IH]; [reflexivity|]; cbn [map concat length]; rewrite app_length, LB, IH; lia).
  split; [rewrite CL, seq_length; reflexivity|]. intros j i Hj Hi. exists (full j). split.
  - assert (G : forall l j, (j < length l)%nat -> nth_error (concat (map block l)) (j * length nC + i) = nth_error (block (nth j l 0%nat)) i).
    { induction l as [|x l IH]; intros q Hq; [cbn in Hq; lia|]. cbn [map concat]. destruct q as [|q]; cbn [nth].
      - rewrite nth_error_app1 by (rewrite LB; lia). reflexivity.
      - rewrite nth_error_app2 by (rewrite LB; nia). rewrite LB. replace (S q * length nC + i - length nC)%nat with (q * length nC + i)%nat by nia. apply IH. cbn in Hq. lia. }
    rewrite G by (rewrite seq_length; exact Hj). rewrite seq_nth by exact Hj. unfold block. rewrite nth_error_map.
    assert (Q : nth_error (seq 0 (length nC)) i = Some i) by (rewrite (nth_error_nth' _ 0%nat) by (rewrite seq_length; exact Hi); rewrite seq_nth by exact Hi; reflexivity). rewrite Q. reflexivity.
  - apply full_assembled; [exact HA|]. intros i' Hi'. apply sub_seen.
Qed.
(** Without dimension. *)
Theorem c85_zero A (rates : R -> R -> (nat -> R) -> nat -> A) nC from t d (sols : list (list R)) :
  apart nC from -> (0 < length nC)%nat -> length sols = length nC ->
  exists f, stepRates nC from rates [t] [d] (map (fun s => [combine (seq 0 (length s)) s]) sols) = Some (map (fun i => (i, 0%nat, rates t d f i)) (seq 0 (length nC))) /\
    assembled nC from (fun i k => nth k (nth i sols []) 0) f.
Proof.
  intros HA H0 HL. set (part := fun i => subConc nC i (combine (seq 0 (length (nth i sols []))) (nth i sols []))).
  exists (fullConc from (map part (seq 0 (length nC)))). split.
  - unfold stepRates, getSubInstanceData. destruct (map (fun s => [combine (seq 0 (length s)) s]) sols) as [|c cs] eqn:EC; [destruct sols; [cbn in HL; lia|discriminate]|]. rewrite <- EC. clear c cs EC. rewrite map_length, HL.
    change (points [t]) with 1%nat. cbn [seq map]. rewrite (allSome_all _ _ (map part (seq 0 (length nC)))); [cbn [allSome length Nat.ltb Nat.leb map updateTemperaturesAndRates nth_error Nat.eqb option_map concat]; rewrite app_nil_r; reflexivity|]. apply Forall2_seq. intros i Hi. unfold part.
    assert (Q : nth i (map (fun s : list R => [combine (seq 0 (length s)) s]) sols) [] = [combine (seq 0 (length (nth i sols []))) (nth i sols [])]).
    { rewrite (nth_indep _ [] [combine (seq 0 (length (@nil R))) []]) by (rewrite map_length; lia). apply (map_nth (fun s : list R => [combine (seq 0 (length s)) s])). }
    rewrite Q. reflexivity.
  - apply full_assembled; [exact HA|]. intros i Hi. apply sub_all.
Qed.
Example c85_zero_ok :
  let from i k := match i with O => (2 * k)%nat | _ => (2 * k + 1)%nat end in
  apart [2; 2]%nat from /\
  stepRates [2; 2]%nat from (fun t d f i => (t, f 0%nat, f 1%nat, f 2%nat, f 3%nat)) [900] [1] (map (fun s => [combine (seq 0 (length s)) s]) [[5; 6; 900]; [7; 8; 900]]) =
  Some [(0%nat, 0%nat, (900, 5, 7, 6, 8)); (1%nat, 0%nat, (900, 5, 7, 6, 8))].
Proof.
  cbv zeta. split; [|reflexivity]. intros i k i' k' Hi Hk Hi' Hk'. cbn [length] in Hi, Hi'. destruct i as [|[|i]], i' as [|[|i']]; try lia; cbn [nth] in Hk, Hk'; lia.
Qed.
Example c85_line_ok :
  let from i k := match i with O => (2 * k)%nat | _ => (2 * k + 1)%nat end in
  apart [2; 2]%nat from /\ (forall s, In s [[[5; 6]; [1; 2]; [0; 0]]; [[7; 8]; [3; 4]; [0; 0]]] -> length s = 3%nat).
Proof.
  cbv zeta. split; [|intros s [<-|[<-|[]]]; reflexivity]. intros i k i' k' Hi Hk Hi' Hk'. cbn [length] in Hi, Hi'. destruct i as [|[|i]], i' as [|[|i']]; try lia; cbn [nth] in Hk, Hk'; lia.
Qed.
Print Assumptions c85_line.
Print Assumptions c85_zero.

(** Groups: the moments of a sub-network are not handed over. Two states which differ in a moment give the same rates and the vector has zero at the
    moment of the whole network. *)
Theorem c85_moments_refuted A (rates : R -> R -> (nat -> R) -> nat -> A) c (dof : nat) x y t d : (c < dof)%nat -> length x = dof -> length y = dof -> firstn c x = firstn c y ->
  stepRates [c] (fun _ k => k) rates [t] [d] [[combine (seq 0 dof) x]] = stepRates [c] (fun _ k => k) rates [t] [d] [[combine (seq 0 dof) y]] /\
  exists f, stepRates [c] (fun _ k => k) rates [t] [d] [[combine (seq 0 dof) x]] = Some [(0%nat, 0%nat, rates t d f 0%nat)] /\ forall k, (c <= k)%nat -> f k = 0.
Proof.
  intros Hc Lx Ly E. split.
  - assert (S : subConc [c] 0 (combine (seq 0 dof) x) = subConc [c] 0 (combine (seq 0 dof) y)).
    { assert (Sx := sub_all [c] 0 x). assert (Sy := sub_all [c] 0 y). rewrite Lx in Sx. rewrite Ly in Sy. cbn [nth] in Sx, Sy. destruct Sx as [Ax Bx], Sy as [Ay By]. apply (nth_ext _ _ 0 0); [congruence|].
      intros k Hk. rewrite Ax in Hk. rewrite Bx, By by exact Hk. rewrite <- (firstn_skipn c x), <- (firstn_skipn c y), E.
      assert (L : length (firstn c y) = c) by (rewrite firstn_length; lia). rewrite !app_nth1 by (rewrite L; exact Hk). reflexivity. }
    unfold stepRates, getSubInstanceData. change (points [t]) with 1%nat. cbn [length seq map nth nth_error option_map allSome]. rewrite S. reflexivity.
  - assert (Z := c85_zero A rates [c] (fun _ k => k) t d [x]). cbn [map length] in Z. rewrite Lx in Z. destruct Z as (f & F1 & F2); [|lia|reflexivity|].
    { intros i k i' k' Hi _ Hi' _ H. cbn [length] in Hi, Hi'. lia. }
    exists f. split; [exact F1|]. intros k Hk. apply F2. intros i k' Hi Hk' ->. cbn [length] in Hi. assert (i = 0%nat) by lia. subst i. cbn [nth] in Hk'. lia.
Qed.
Example c85_moments_refuted_ok : firstn 1 [5; 3] = firstn 1 [5; 0] /\ [5; 3] <> [5; 0].
Proof. split; [reflexivity|]. intros E. injection E. lra. Qed.
Print Assumptions c85_moments_refuted.
