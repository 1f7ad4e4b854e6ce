(** Sharper statements for C27, C32 and C48: the row of the matrix at one grid point of the
    one-dimensional solver, the advective flux, the position of the grid points. *)
From Coq Require Import FunctionalExtensionality.
From Verif Require Import Solver1DModel StencilProofs Solver1DProofs.
Open Scope R_scope.

(** ** C32: the announced entries carry the derivatives *)
(** Spec: [d] is the matrix entry in the row of cluster [k] at [xi] and the column of cluster [k] at [j],
    when the values [vals] are written to the slots [slots]. *)
Definition at_column (slots : list label) (vals : nat -> R) (xi j k : nat) : R :=
  Rsum (seq 0 (length slots)) (fun v =>
    match nth_error slots v with
    | Some ((r, rk), (c, ck)) =>
        if ((r =? Z.of_nat xi)%Z && (rk =? k)%nat && (c =? Z.of_nat j)%Z && (ck =? k)%nat)%bool then vals v else 0
    | None => 0
    end).
Lemma row_partial (f : (nat -> R) -> R) g c xi j : (1 <= xi)%nat ->
  (forall v, is_partial f (around c xi) v (g v)) ->
  is_partial (fun c => f (around c xi)) c j
    (if (j =? xi)%nat then g 0%nat else if (j =? xi - 1)%nat then g 1%nat else if (j =? xi + 1)%nat then g 2%nat else 0).
Proof.
  intros Hx H.
  assert (S : forall v, (v < 3)%nat -> j = (match v with 0 => xi | 1 => xi - 1 | _ => xi + 1 end)%nat ->
              is_partial (fun c => f (around c xi)) c j (g v)).
  { intros v Hv Ej. specialize (H v). unfold is_partial in *.
    assert (E : around c xi v = c j) by (destruct v as [|[|[|v]]]; try lia; cbn [around]; congruence).
    rewrite E in H. replace (fun t => f (around (setc c j t) xi)) with (fun t => f (setc (around c xi) v t)); [exact H|].
    extensionality t. f_equal. extensionality i. unfold setc, around.
    destruct v as [|[|[|v]]]; try lia; destruct i as [|[|[|i]]]; cbn [Nat.eqb]; subst j;
      rewrite ?Nat.eqb_refl; try reflexivity; match goal with |- context[(?a =? ?b)%nat] => destruct (Nat.eqb_spec a b); [lia|reflexivity] end. }
  destruct (Nat.eqb_spec j xi); [apply (S 0%nat); auto; lia|].
  destruct (Nat.eqb_spec j (xi - 1)); [apply (S 1%nat); auto; lia|].
  destruct (Nat.eqb_spec j (xi + 1)); [apply (S 2%nat); auto; lia|].
  unfold is_partial. replace (fun t => f (around (setc c j t) xi)) with (fun _ : R => f (around c xi)); [apply derivable_pt_lim_const|].
  extensionality t. f_equal. extensionality i. unfold around, setc.
  destruct i as [|[|[|i]]]; try reflexivity; match goal with |- context[(?a =? ?b)%nat] => destruct (Nat.eqb_spec a b); [lia|reflexivity] end.
Qed.
Ltac zdec := repeat match goal with |- context[(?a =? ?b)%Z] => destruct (Z.eqb_spec a b) | |- context[(?a =? ?b)%nat] => destruct (Nat.eqb_spec a b) end.
(** Diffusion. *)
Theorem c32_diffusion_row : forall grid nX lo ro gb D m c xi j k,
  (forall i, grid i < grid (S i)) -> (1 <= xi)%nat -> (lo <= xi)%nat -> (xi + ro < nX)%nat -> ~ In xi gb ->
  is_partial (fun c => diffRate grid nX lo ro gb D m c xi) c j
    (at_column (triple xi (k, k))
       (dval1 (Loc (hxLeft grid xi) (hxRight grid nX xi) 0 0 (D (xi - 1)%nat) (D xi) (D (xi + 1)%nat)) (around m xi)) xi j k).
Proof.
  intros grid nX lo ro gb D m c xi j k Hg Hx Hlo Hro Hgb.
  assert (ES : skipped nX lo ro gb xi = false).
  { unfold skipped. destruct (Nat.ltb_spec xi lo); [lia|]. destruct (Nat.ltb_spec (nX - 1 - ro) xi); [lia|]. cbn [orb].
    destruct (existsb (Nat.eqb xi) gb) eqn:EG; [|reflexivity]. apply existsb_exists in EG as (y & Hy & E). apply Nat.eqb_eq in E. subst y. contradiction. }
  pose (p := Loc (hxLeft grid xi) (hxRight grid nX xi) 0 0 (D (xi - 1)%nat) (D xi) (D (xi + 1)%nat)).
  assert (H1 : 0 < hl p) by (apply hL_pos; exact Hg). assert (H2 : 0 < hr p) by (apply hR_pos; exact Hg).
  assert (H : is_partial (fun c => diff1 p (around m xi) (around c xi)) c j
    (if (j =? xi)%nat then dval1 p (around m xi) 0 else if (j =? xi - 1)%nat then dval1 p (around m xi) 1 else if (j =? xi + 1)%nat then dval1 p (around m xi) 2 else 0)).
  { apply (row_partial (diff1 p (around m xi)) (dval1 p (around m xi))); [exact Hx|]. intros v. apply diff1_partial; lra. }
  fold p. eapply pd_fun_ext; [|eapply pd_eq; [exact H|]].
  - intros c'. unfold diffRate. rewrite ES. destruct (Nat.eqb_spec xi 0); [lia|]. reflexivity.
  - generalize (dval1 p (around m xi)). intros g. unfold at_column, triple, lab. cbn [length seq nth_error Rsum fst snd].
    rewrite !Z.eqb_refl, !Nat.eqb_refl. cbn [andb]. zdec; cbn [andb]; try lia; ring.
Qed.
(** Nothing at the excluded points and at the first one. *)
Theorem c32_diffusion_excluded : forall grid nX lo ro gb D m c xi,
  xi = 0%nat \/ (xi < lo)%nat \/ (nX <= xi + ro)%nat \/ In xi gb -> (ro < nX)%nat -> diffRate grid nX lo ro gb D m c xi = 0.
Proof.
  intros grid nX lo ro gb D m c xi H Hn. unfold diffRate, skipped.
  assert (E : In xi gb -> existsb (Nat.eqb xi) gb = true) by (intros Hi; apply existsb_exists; exists xi; rewrite Nat.eqb_refl; auto).
  destruct (Nat.ltb_spec xi lo), (Nat.ltb_spec (nX - 1 - ro) xi), (Nat.eqb_spec xi 0); cbn [orb]; try rewrite Bool.orb_true_r; try reflexivity.
  destruct H as [H|[H|[H|H]]]; try lia. rewrite E by exact H. reflexivity.
Qed.
Example c32_diffusion_row_ok : (forall i, INR i < INR (S i)) /\ (1 <= 3)%nat /\ (2 <= 3)%nat /\ (3 + 1 < 10)%nat /\ ~ In 3%nat [5%nat] /\
  at_column (triple 3 (7%nat, 7%nat)) (dval1 (Loc 1 1 0 0 2 2 2) (fun _ => 1)) 3 2 7 = 2.
Proof.
  split; [intros; apply lt_INR; lia|]. repeat split; try lia; [intros [H|[]]; discriminate|].
  unfold at_column. cbn. lra.
Qed.
Print Assumptions c32_diffusion_row.
Print Assumptions c32_diffusion_excluded.

(** Advection towards the surface: the handler announces the offset 1. *)
Theorem c32_surface_row : forall grid nX loc_ A D T m c h xi j k,
  (forall i, grid i < grid (S i)) -> (1 <= xi)%nat -> 0 < T xi -> loc_ < position grid xi ->
  onsink h xi = false -> offset h xi = 1%Z ->
  is_partial (fun c => advAt grid nX loc_ A D T m c xi) c j
    (at_column (advPair h xi (k, k))
       (advSval (Adv (position grid xi) loc_ (hxLeft grid xi) (hxRight grid nX xi) A (D xi) (T xi) (D (xi + 1)%nat) (T (xi + 1)%nat)) (around m xi)) xi j k).
Proof.
  intros grid nX loc_ A D T m c h xi j k Hg Hx HT Hl HS HO. unfold advAt.
  pose (p := Adv (position grid xi) loc_ (hxLeft grid xi) (hxRight grid nX xi) A (D xi) (T xi) (D (xi + 1)%nat) (T (xi + 1)%nat)). fold p.
  assert (H2 : 0 < ah2 p) by (apply hR_pos; exact Hg).
  assert (H3 : 0 < pos p - location p) by (unfold p; cbn [pos location]; lra).
  eapply pd_eq; [apply (row_partial (advS p (around m xi)) (fun v => match v with 0%nat => advSval p (around m xi) 0 | 2%nat => advSval p (around m xi) 1 | _ => 0 end)); [exact Hx|]|].
  - intros v. apply advS_partial; unfold p in *; cbn [aT pos location] in *; lra.
  - generalize (advSval p (around m xi)). intros g. unfold at_column, advPair, lab. rewrite HS, HO. cbn [length seq nth_error Rsum fst snd].
    rewrite !Z.eqb_refl, !Nat.eqb_refl. cbn [andb]. zdec; cbn [andb]; try lia; ring.
Qed.
Example c32_surface_row_ok : (forall i, INR i < INR (S i)) /\ 0 < position INR 4 /\
  onsink (AdvHandler [(7, 7)]%nat (fun _ => 1%Z) (fun _ => false)) 4 = false.
Proof. split; [intros; apply lt_INR; lia|]. split; [unfold position; cbn; lra|reflexivity]. Qed.
Print Assumptions c32_surface_row.

(** Advection towards a sink across x at any place relative to it, for the values the handler
    writes in one dimension. Partial: the size check of this handler fails there
    (c27_x_one_dimension_refuted), so that the solver does not get to the values. *)
Theorem c32_sink_row_partial : forall p c h xi j k,
  (1 <= xi)%nat -> 0 < aT p -> 0 < ah1 p -> 0 < ah2 p ->
  onsink h xi = onSink p -> offset h xi = gbOffset p ->
  is_partial (fun c => advGB 1 2 p (around c xi)) c j
    (at_column (advPair h xi (k, k)) (fun v => match advGBval true p v with Some x => x | None => 0 end) xi j k).
Proof.
  intros p c h xi j k Hx HT H1 H2 HS HO.
  eapply pd_eq; [apply (row_partial (advGB 1 2 p) (advEntry 1 2 p true)); [exact Hx|]|].
  - intros v. apply advGB_partial; auto; lra.
  - unfold advEntry, advEntryAt, at_column, advPair, lab. rewrite HS, HO. unfold gbPoint. pose proof (sides p) as HSd. unfold gbOffset.
    generalize (fun v => match advGBval true p v with Some x => x | None => 0 end). intros g.
    destruct (onSink p).
    + cbn [length seq nth_error Rsum fst snd Z.opp offPoint Z.eqb Z.ltb Z.compare Nat.eqb].
      rewrite !Z.eqb_refl, !Nat.eqb_refl. cbn [andb]. zdec; cbn [andb]; try lia; try ring.
    + specialize (HSd eq_refl). destruct (above p), (below p); try congruence;
      cbn [b2n Z.of_nat Z.sub Z.add Z.opp Z.pos_sub Pos.of_succ_nat length seq nth_error Rsum fst snd offPoint Z.eqb Z.ltb Z.compare Nat.eqb];
      rewrite !Z.eqb_refl, !Nat.eqb_refl; cbn [andb]; zdec; cbn [andb]; try lia; ring.
Qed.
Example c32_sink_row_ok : onSink (Adv 5 5 1 1 3 5 1000 5 1000) = true /\ gbOffset (Adv 5 5 1 1 3 5 1000 5 1000) = 1%Z.
Proof.
  assert (E : onSink (Adv 5 5 1 1 3 5 1000 5 1000) = true).
  { unfold onSink. cbn [location pos]. rewrite Rminus_eq_0, Rabs_R0. destruct (Rlt_dec 0 0.001); [reflexivity|lra]. }
  split; [exact E|]. unfold gbOffset. rewrite E. reflexivity.
Qed.
Print Assumptions c32_sink_row_partial.

(** Reactions: the entry (i, j) of the network stands in the row of i and the column of j at the same point;
    nothing else is announced. *)
Theorem c32_announced : forall soretEnts difEnts nwEnts handlers xi e,
  In (Some e) (coordsAt soretEnts difEnts nwEnts handlers xi) <->
  (exists i j, In (i, j) nwEnts /\ e = ((Z.of_nat xi, i), (Z.of_nat xi, j))) \/
  (exists i j x, (In (i, j) soretEnts \/ In (i, j) difEnts) /\ (x - 1 <= Z.of_nat xi <= x + 1)%Z /\ e = ((Z.of_nat xi, i), (x, j))) \/
  (exists h i j, In h handlers /\ In (i, j) (ents h) /\
     (e = ((Z.of_nat xi, i), (Z.of_nat xi + offset h xi, j))%Z \/
      (onsink h xi = true /\ e = ((Z.of_nat xi, i), (Z.of_nat xi - offset h xi, j))%Z) \/
      (onsink h xi = false /\ e = ((Z.of_nat xi, i), (Z.of_nat xi, j))))).
Proof.
  assert (SM : forall (A : Type) (l : list A) x, In (Some x) (map Some l) <-> In x l).
  { intros A l x. rewrite in_map_iff. split; [intros (y & [= ->] & H); exact H|intros H; exists x; auto]. }
  assert (TR : forall l xi e, In e (flat_map (triple xi) l) <-> exists i j x, In (i, j) l /\ (x - 1 <= Z.of_nat xi <= x + 1)%Z /\ e = ((Z.of_nat xi, i), (x, j))).
  { intros l xi e. rewrite in_flat_map. split.
    - intros ([i j] & Hin & Ht). unfold triple, lab in Ht. cbn [fst snd In] in Ht.
      destruct Ht as [<-|[<-|[<-|[]]]]; eexists i, j, _; (split; [exact Hin|]); (split; [|reflexivity]); lia.
    - intros (i & j & x & Hin & Hx & ->). exists (i, j). split; [exact Hin|]. unfold triple, lab. cbn [fst snd In].
      assert (Hc : x = Z.of_nat xi \/ x = (Z.of_nat xi - 1)%Z \/ x = (Z.of_nat xi + 1)%Z) by lia. destruct Hc as [-> | [-> | ->]]; auto. }
  intros soretEnts difEnts nwEnts handlers xi e. unfold coordsAt. rewrite !in_app_iff, !SM, !TR. split.
  - intros [(i & j & x & H & Hx & E)|[(i & j & x & H & Hx & E)|[H|H]]].
    + right. left. exists i, j, x. auto.
    + right. left. exists i, j, x. auto.
    + right. right. apply in_flat_map in H as (h & Hh & H). apply in_app_iff in H as [H|H].
      * rewrite SM in H. apply in_flat_map in H as ([i j] & Hin & H). exists h, i, j. split; [exact Hh|]. split; [exact Hin|].
        unfold advPair, lab in H. cbn [fst snd] in H. destruct (onsink h xi); destruct H as [<-|[<-|[]]]; auto.
      * apply repeat_spec in H. discriminate.
    + left. apply in_map_iff in H as ([i j] & <- & H). exists i, j. auto.
  - intros [(i & j & H & ->)|[(i & j & x & [H|H] & Hx & E)|(h & i & j & Hh & Hin & H)]].
    + right. right. right. apply in_map_iff. exists (i, j). auto.
    + left. exists i, j, x. auto.
    + right. left. exists i, j, x. auto.
    + right. right. left. apply in_flat_map. exists h. split; [exact Hh|]. apply in_app_iff. left. rewrite SM.
      apply in_flat_map. exists (i, j). split; [exact Hin|]. unfold advPair, lab. cbn [fst snd].
      destruct (onsink h xi); destruct H as [-> | [[B ->]|[B ->]]]; try discriminate; cbn; auto.
Qed.
Example c32_announced_ok : In (Some ((3%Z, 1%nat), (3%Z, 2%nat))) (coordsAt [] [(0, 0)%nat] [(1, 2)%nat] [] 3).
Proof. cbn. auto 10. Qed.
Print Assumptions c32_announced.

(** The space reserved for each advection handler is that of the largest one. *)
Theorem c32_room : forall handlers,
  (forall h, In h handlers -> (length (ents h) <= nAdvec handlers)%nat) /\
  (handlers = [] -> nAdvec handlers = 0%nat) /\
  (handlers <> [] -> exists h, In h handlers /\ length (ents h) = nAdvec handlers).
Proof.
  assert (G : forall l a, let r := fold_left Nat.max l a in
    (a <= r)%nat /\ (forall x, In x l -> (x <= r)%nat) /\ (r = a \/ In r l)).
  { induction l as [|y l IH]; intros a; cbn [fold_left In]; [repeat split; auto; intros x []|].
    destruct (IH (Nat.max a y)) as (H1 & H2 & H3). cbn zeta in *. repeat split; [lia| |].
    - intros x [<-|H]; [lia|auto].
    - destruct H3 as [H3|H3]; [|auto]. rewrite H3. destruct (Nat.max_spec a y) as [[_ E]|[_ E]]; rewrite E; auto. }
  intros handlers. unfold nAdvec. destruct (G (map (fun h => length (ents h)) handlers) 0%nat) as (H1 & H2 & H3). cbn zeta in *.
  split; [intros h Hh; apply H2; apply in_map_iff; exists h; auto|]. split; [intros ->; reflexivity|]. intros HN.
  destruct H3 as [H3|H3].
  - destruct handlers as [|h r]; [congruence|]. exists h. split; [left; reflexivity|].
    rewrite H3. assert (length (ents h) <= 0)%nat; [|lia]. rewrite <- H3. apply H2. left. reflexivity.
  - apply in_map_iff in H3 as (h & E & Hh). exists h. auto.
Qed.
Example c32_room_ok : nAdvec [AdvHandler [(1, 1)%nat; (2, 2)%nat] (fun _ => 1%Z) (fun _ => false); AdvHandler [] (fun _ => 0%Z) (fun _ => false)] = 2%nat.
Proof. reflexivity. Qed.
Print Assumptions c32_room.

(** ** C27: the surface term is the divergence of the drift flux 3 A D / (kB T) c / x^4, with Boltzmann's
    constant in eV/K; uniform coefficients. *)
Definition drift (A D T c x : R) : R := 3 * A * D / (8.6173324e-5 * T) * (c / x ^ 4).
Theorem c27_surface_flux p c : 0 < aT p -> 0 < ah2 p -> 0 < pos p - location p -> aDr p = aD p -> aTr p = aT p ->
  advS p (fun _ => 1) c =
  (drift (strength p) (aD p) (aT p) (c 2%nat) (pos p + ah2 p - location p) -
   drift (strength p) (aD p) (aT p) (c 0%nat) (pos p - location p)) / ah2 p.
Proof.
  intros HT Hh Hd ED ET. unfold advS, drift. rewrite ED, ET. fold kB. replace (pos p + ah2 p - location p) with (pos p - location p + ah2 p) by ring.
  remember (pos p - location p) as d. pose proof kB_pos. unfold pow. field. repeat split; lra.
Qed.
(** And across a grain boundary, away from it: what flows in from the next point further away minus what leaves. *)
Theorem c27_sink_flux lo hi p c : onSink p = false -> 0 < aT p -> 0 < gbStep p ->
  advGB lo hi p c =
  (drift (strength p) (aD p) (aT p) (c (gbIndex lo hi p)) (Rabs (location p - pos p) + gbStep p) -
   drift (strength p) (aD p) (aT p) (c 0%nat) (Rabs (location p - pos p))) / gbStep p.
Proof.
  intros HS HT Hg. unfold advGB, drift. rewrite HS. fold kB.
  assert (HA : 0 < Rabs (location p - pos p)).
  { unfold onSink in HS. destruct (Rlt_dec (Rabs (location p - pos p)) 0.001); [discriminate|lra]. }
  remember (Rabs (location p - pos p)) as d. pose proof kB_pos. unfold pow. field. repeat split; lra.
Qed.
Example c27_flux_ok : drift 3 5 1000 1 1 = 45 / (8.6173324e-5 * 1000) /\ gbStep (Adv 8 5 1 2 3 5 1000 5 1000) = 2.
Proof.
  unfold drift, gbStep, above, below. cbn [pos location ah1 ah2]. split; [unfold pow; lra|].
  destruct (Rlt_dec 5 8), (Rlt_dec 8 5); try lra. unfold b2r. lra.
Qed.
Print Assumptions c27_surface_flux.
Print Assumptions c27_sink_flux.

(** ** C48: the positions are the midpoints of the cells, counted from the left end of the cell 1 *)
Theorem c48_position grid : position grid 1 = cellWidth grid 1 / 2 /\
  forall i, position grid (S i) - position grid i = (cellWidth grid i + cellWidth grid (S i)) / 2.
Proof.
  unfold position, cellWidth. split; [cbn [Nat.add]; lra|]. intros i. replace (S i + 1)%nat with (S (i + 1)) by lia.
  replace (S i) with (i + 1)%nat by lia. lra.
Qed.
Example c48_position_ok : position (fun i => INR i * INR i) 2 = 11 / 2. Proof. unfold position. cbn. lra. Qed.
Print Assumptions c48_position.
