(** Trap mutation, nucleation and sinks: proofs. *)
From Verif Require Export SmallModel ConstProofs ReactionExamples.
Open Scope R_scope.

(** Weighted total of a flux over a list of clusters. *)
Definition total (cls : list nat) (w : nat -> R) (u : nat -> R) : R := Rsum cls (fun c => w c * u c).

Lemma total_plus cls w u v : total cls w (fun c => u c + v c) = total cls w u + total cls w v.
Proof. unfold total. rewrite <- Rsum_plus. apply Rsum_ext. intros; ring. Qed.
Lemma total_point cls w i x : NoDup cls -> In i cls -> total cls w (fun c => ind (i =? c)%nat * x) = w i * x.
Proof.
  intros ND Hi. unfold total. rewrite (@Rsum_single _ cls _ i ND Hi).
  - rewrite Nat.eqb_refl. unfold ind. ring.
  - intros c _ Hc. replace (i =? c)%nat with false by (symmetry; apply Nat.eqb_neq; congruence). unfold ind. ring.
Qed.

Lemma total_acc cls w l : NoDup cls -> (forall i x, In (i, x) l -> In i cls) ->
  total cls w (acc l) = Rsum l (fun '(i, x) => w i * x).
Proof.
  intros ND. induction l as [|[i x] l IH]; intros H.
  - unfold total. cbn. apply Rsum_zero. intros; ring.
  - cbn [Rsum]. rewrite <- IH by (intros; eapply H; right; eauto).
    rewrite <- (total_point cls w i x ND) by (eapply H; left; reflexivity).
    rewrite <- total_plus. unfold total. apply Rsum_ext. intros c _. rewrite acc_cons. reflexivity.
Qed.

(** ** Trap mutation *)
Lemma tm_conserved cls w D t conc : NoDup cls -> In (heCl t) cls -> In (heVCl t) cls -> In (iCl t) cls ->
  w (heVCl t) + w (iCl t) = w (heCl t) -> total cls w (acc (tmFlux D t conc)) = 0.
Proof.
  intros ND H1 H2 H3 Hw. rewrite total_acc; [|exact ND|].
  - unfold tmFlux. destruct (enabled D t); cbn [when Rsum]; [|lra]. rewrite <- Hw. ring.
  - intros i x H. unfold tmFlux in H. destruct (enabled D t); cbn [when] in H; [|destruct H].
    destruct H as [E|[E|[E|[]]]]; inversion E; subst; assumption.
Qed.

Lemma tm_jacobian D t conc r j :
  is_partial (fun c => acc (tmFlux D t c) r) conc j (jacc (tmPartials D t) r j).
Proof.
  unfold tmFlux, tmPartials. destruct (enabled D t); cbn [when].
  - apply (@pd_fun_ext conc j (fun c => ind (heCl t =? r)%nat * - (applied D t * c (heCl t))
      + (ind (heVCl t =? r)%nat * (applied D t * c (heCl t)) + (ind (iCl t =? r)%nat * (applied D t * c (heCl t)) + 0)))).
    { intros c. cbv zeta. rewrite !acc_cons, acc_nil. reflexivity. }
    rewrite !jacc_cons, jacc_nil. cbn [oeqb].
    eapply pd_eq.
    { apply pd_plus; [apply pd_scal, pd_opp, pd_scal, pd_var|].
      apply pd_plus; [apply pd_scal, pd_scal, pd_var|].
      apply pd_plus; [apply pd_scal, pd_scal, pd_var|apply pd_const]. }
    ring.
  - apply pd_const.
Qed.

Lemma tm_reduced D t r j : heVCl t <> heCl t -> iCl t <> heCl t ->
  jacc (tmReduced D t) r j = if (r =? j)%nat then jacc (tmPartials D t) r j else 0.
Proof.
  intros H1 H2. unfold tmReduced, tmPartials. destruct (enabled D t); cbn [when].
  - rewrite !jacc_cons, !jacc_nil. cbn [oeqb].
    destruct (Nat.eqb_spec r j) as [<-|Hn].
    + unfold ind. destruct (Nat.eqb_spec (heCl t) r) as [<-|]; [|lra].
      apply Nat.eqb_neq in H1, H2. rewrite H1, H2. lra.
    + unfold ind. destruct (Nat.eqb_spec (heCl t) r) as [<-|]; [|lra].
      apply Nat.eqb_neq in Hn. rewrite Hn. lra.
  - rewrite jacc_nil. destruct (r =? j)%nat; reflexivity.
Qed.

Lemma tm_contained D t o o' v : In (o, o', v) (tmPartials D t) -> In (o, o') (tmConn t).
Proof.
  unfold tmPartials, tmConn. destruct (enabled D t); cbn [when]; [|intros []].
  intros [E|[E|[E|[]]]]; inversion E; subst; cbn; tauto.
Qed.

(** The share of the desorbing cluster's losses that goes into mutation. *)
Lemma tm_share D t largest : heCl t = desorpId D -> portion D <> 0 -> lsRate D <> 0 ->
  tmRate t = tmComputeRate D t largest -> disap D = 1 ->
  lsRate D / (lsRate D + applied D t) = portion D.
Proof.
  intros E Hp HL Hr Hd. unfold applied. rewrite Hr, Hd. unfold tmComputeRate. rewrite E, Nat.eqb_refl.
  replace (lsRate D + (1 - portion D) / portion D * lsRate D * 1) with (lsRate D / portion D) by (field; exact Hp).
  field. split; assumption.
Qed.

Lemma tm_const D t inS U conc d :
  U (heCl t) = inS (heCl t) -> U (heVCl t) = inS (heVCl t) -> U (iCl t) = inS (iCl t) -> U d = true ->
  inS (heCl t) = false -> inS (heVCl t) = false ->
  capply (tmConst inS D t conc) conc d = acc (tmFlux D t conc) d.
Proof.
  intros H1 H2 H3 Hd F1 F2. unfold tmConst, tmFlux. destruct (enabled D t); cbn [when]; [|reflexivity].
  rewrite F1, F2. cbn [negb andb when app]. rewrite !acc_cons, acc_nil.
  replace (ind (heCl t =? d)%nat) with 0.
  2:{ unfold ind. destruct (Nat.eqb_spec (heCl t) d) as [<-|]; [congruence|reflexivity]. }
  replace (ind (heVCl t =? d)%nat) with 0.
  2:{ unfold ind. destruct (Nat.eqb_spec (heVCl t) d) as [<-|]; [congruence|reflexivity]. }
  destruct (inS (iCl t)) eqn:F3; cbn [negb].
  - cbn [when app]. rewrite capply_cons, capply_nil. cbn [oeqb colval]. ring.
  - replace (ind (iCl t =? d)%nat) with 0.
    2:{ unfold ind. destruct (Nat.eqb_spec (iCl t) d) as [<-|]; [congruence|reflexivity]. }
    rewrite capply_nil. ring.
Qed.

(** ** Selection by depth *)
Lemma selects_spec depth spacing dl : selects depth spacing dl = true <->
  dl <> 0 /\ depth - spacing - 1 / 100 < dl < depth + 1 / 100.
Proof.
  unfold selects. destruct (Req_EM_T dl 0) as [->|Hn]; [split; [discriminate|intros [H _]; lra]|].
  destruct (Rlt_dec dl (depth + 1 / 100)); [|split; [discriminate|lra]].
  destruct (Rgt_dec dl (depth - spacing - 1 / 100)); split; try discriminate; try lra; auto.
Qed.

Lemma selects_cover (x : nat -> R) n dl : dl <> 0 -> x 0%nat < dl <= x n ->
  exists i, (1 <= i <= n)%nat /\ selects (x i) (x i - x (i - 1)%nat) dl = true.
Proof.
  intros Hn. induction n as [|n IH]; intros [Hlo Hhi]; [lra|].
  destruct (Rle_dec dl (x n)) as [H|H].
  - destruct (IH (conj Hlo H)) as (i & Hi & E). exists i. split; [lia|exact E].
  - exists (S n). split; [lia|]. apply selects_spec. replace (S n - 1)%nat with n by lia. lra.
Qed.

(** ** Nucleation *)
Lemma nu_conserved cls w u conc : NoDup cls -> In (nR u) cls -> In (nP u) cls ->
  w (nP u) = 2 * w (nR u) -> total cls w (acc (nuFlux u conc)) = 0.
Proof.
  intros ND H1 H2 Hw. rewrite total_acc; [|exact ND|].
  - unfold nuFlux. destruct (Rgt_dec _ _); cbn [Rsum]; rewrite Hw; lra.
  - intros i x. unfold nuFlux. destruct (Rgt_dec _ _); intros [E|[E|[]]]; inversion E; subst; assumption.
Qed.

Lemma nu_loss u conc : nR u <> nP u -> 0 <= conc (nR u) -> 0 <= nRate u ->
  acc (nuFlux u conc) (nR u) = - Rmin (conc (nR u)) (2 * nRate u) /\
  acc (nuFlux u conc) (nP u) = Rmin (conc (nR u)) (2 * nRate u) / 2 /\
  0 <= - acc (nuFlux u conc) (nR u) <= conc (nR u).
Proof.
  intros Hn Hc Hr. assert (E : forall z, acc (nuFlux u conc) (nR u) = z -> z <= 0 -> - z <= conc (nR u) ->
      0 <= - acc (nuFlux u conc) (nR u) <= conc (nR u)) by (intros z -> ? ?; lra).
  assert (A : (nP u =? nR u)%nat = false) by (apply Nat.eqb_neq; congruence).
  assert (B : (nR u =? nP u)%nat = false) by (apply Nat.eqb_neq; congruence).
  assert (H1 : acc (nuFlux u conc) (nR u) = - Rmin (conc (nR u)) (2 * nRate u)).
  { unfold nuFlux, Rmin. destruct (Rgt_dec _ _), (Rle_dec _ _); rewrite !acc_cons, acc_nil, Nat.eqb_refl, A; unfold ind; lra. }
  split; [exact H1|]. split.
  - unfold nuFlux, Rmin. destruct (Rgt_dec _ _), (Rle_dec _ _); rewrite !acc_cons, acc_nil, Nat.eqb_refl, B; unfold ind; lra.
  - apply (E _ H1); unfold Rmin; destruct (Rle_dec _ _); lra.
Qed.

(** The loss is a continuous function of the reactant concentration. *)
Lemma nu_continuous u conc conc' : nR u <> nP u ->
  Rabs (acc (nuFlux u conc) (nR u) - acc (nuFlux u conc') (nR u)) <= Rabs (conc (nR u) - conc' (nR u)).
Proof.
  intros Hn. assert (A : (nP u =? nR u)%nat = false) by (apply Nat.eqb_neq; congruence).
  unfold nuFlux. destruct (Rgt_dec (conc (nR u)) _), (Rgt_dec (conc' (nR u)) _);
    rewrite !acc_cons, !acc_nil, Nat.eqb_refl, A; unfold ind, Rabs; repeat destruct (Rcase_abs _); lra.
Qed.

Lemma derivable_pt_lim_locally f g x l (e : R) : 0 < e ->
  (forall y, Rabs (y - x) < e -> f y = g y) -> derivable_pt_lim f x l -> derivable_pt_lim g x l.
Proof.
  intros He E H eps Heps. destruct (H eps Heps) as [del Hd].
  assert (Hm : 0 < Rmin del e) by (apply Rmin_glb_lt; [apply cond_pos|exact He]).
  exists (mkposreal _ Hm). intros h Hh Hlt. cbn in Hlt.
  rewrite <- !E.
  - apply Hd; [exact Hh|]. eapply Rlt_le_trans; [exact Hlt|apply Rmin_l].
  - rewrite Rminus_diag_eq, Rabs_R0 by reflexivity. exact He.
  - replace (x + h - x) with h by ring. eapply Rlt_le_trans; [exact Hlt|apply Rmin_r].
Qed.

Lemma nu_jacobian u conc r j : conc (nR u) <> 2 * nRate u ->
  is_partial (fun c => acc (nuFlux u c) r) conc j (jacc (nuPartials u conc) r j).
Proof.
  intros Hsw. unfold is_partial.
  set (e := Rabs (conc (nR u) - 2 * nRate u)).
  assert (He : 0 < e) by (apply Rabs_pos_lt; lra).
  destruct (Rgt_dec (conc (nR u)) (2 * nRate u)) as [H|H].
  - apply (derivable_pt_lim_locally (fun _ => acc [(nR u, - (2 * nRate u)); (nP u, nRate u)] r) _ _ _ e He).
    + intros y Hy. unfold nuFlux. destruct (Rgt_dec _ _) as [|H']; [reflexivity|exfalso]. apply H'.
      unfold setc. destruct (Nat.eqb_spec (nR u) j) as [Ej|]; [|exact H].
      rewrite <- Ej in Hy. unfold e, Rabs in Hy. repeat destruct (Rcase_abs _) in Hy; lra.
    + unfold nuPartials. destruct (Rgt_dec _ _); [|contradiction]. rewrite jacc_nil. apply derivable_pt_lim_const.
  - apply (derivable_pt_lim_locally (fun t => acc [(nR u, - setc conc j t (nR u)); (nP u, setc conc j t (nR u) / 2)] r) _ _ _ e He).
    + intros y Hy. unfold nuFlux. destruct (Rgt_dec _ _) as [H'|]; [exfalso|reflexivity].
      unfold setc in H'. destruct (Nat.eqb_spec (nR u) j) as [Ej|]; [|contradiction].
      rewrite <- Ej in Hy. unfold e, Rabs in Hy. repeat destruct (Rcase_abs _) in Hy; lra.
    + unfold nuPartials. destruct (Rgt_dec _ _); [contradiction|]. rewrite !jacc_cons, jacc_nil. cbn [oeqb].
      change (is_partial (fun c => acc [(nR u, - c (nR u)); (nP u, c (nR u) / 2)] r) conc j
        (ind (nR u =? r)%nat * ind (nR u =? j)%nat * -1 + (ind (nP u =? r)%nat * ind (nR u =? j)%nat * (1 / 2) + 0))).
      apply (@pd_fun_ext conc j
        (fun c => ind (nR u =? r)%nat * - c (nR u) + (ind (nP u =? r)%nat * (c (nR u) * / 2) + 0))).
      { intros c. rewrite !acc_cons, acc_nil. unfold Rdiv. reflexivity. }
      eapply pd_eq.
      { apply pd_plus; [apply pd_scal, pd_opp, pd_var|].
        apply pd_plus; [apply pd_scal, pd_scal_r, pd_var|apply pd_const]. }
      field.
Qed.

Lemma nu_reduced u conc r j :
  jacc (nuReduced u conc) r j = if (r =? j)%nat then jacc (nuPartials u conc) r j else 0.
Proof.
  unfold nuReduced, nuPartials. destruct (Rgt_dec _ _).
  - rewrite jacc_nil. destruct (r =? j)%nat; reflexivity.
  - rewrite jacc_app, jacc_when, !jacc_cons, !jacc_nil. cbn [oeqb]. unfold ind.
    destruct (Nat.eqb_spec r j) as [<-|]; destruct (Nat.eqb_spec (nR u) r), (Nat.eqb_spec (nP u) (nR u)), (Nat.eqb_spec (nP u) r);
      try destruct (Nat.eqb_spec (nR u) j); subst; try lra; congruence.
Qed.

(** ** Sinks *)
Lemma sink_jacobian k conc r j :
  is_partial (fun c => acc (sinkFlux k c) r) conc j (jacc (sinkPartials k) r j).
Proof.
  apply (@pd_fun_ext conc j (fun c => ind (sR k =? r)%nat * - (c (sR k) * sRate k) + 0));
    [intros c; unfold sinkFlux; rewrite acc_cons, acc_nil; reflexivity|].
  unfold sinkPartials. rewrite jacc_cons, jacc_nil. cbn [oeqb]. eapply pd_eq.
  { apply pd_plus; [apply pd_scal, pd_opp, pd_scal_r, pd_var|apply pd_const]. }
  ring.
Qed.

(** ** Left-side rate *)
Definition ungrouped (x : prx) : Prop := (forall k, ma x k = None) /\ (forall k, mb x k = None).

Lemma ungrouped_flux x conc : ungrouped x -> fluxSum x conc 0 0 = cf x (Co 0 0 0 0) * conc (ra x) * conc (rb x) * rate x.
Proof.
  intros [HA HB]. unfold fluxSum, cR1, cR2, cmR1, cmR2. rewrite Rsum_zero; [ring|].
  intros i _. rewrite HA, HB. cbn [cval]. rewrite Rsum_zero; [ring|]. intros; ring.
Qed.

(** What the reaction removes from cluster c, as written in computeFlux. *)
Definition prodLoss (x : prx) (conc : nat -> R) (c : nat) : R :=
  (if (ra x =? c)%nat then fluxSum x conc 0 0 / va x else 0)
  + (if (rb x =? c)%nat then fluxSum x conc 0 0 / vb x else 0).

Lemma prod_left x conc c : ungrouped x -> va x = 1 -> vb x = 1 -> ra x <> rb x ->
  prodLoss x conc c = prodLeft x conc c * conc c.
Proof.
  intros U Va Vb Hne. unfold prodLoss, prodLeft. rewrite Va, Vb, (ungrouped_flux _ _ U).
  rewrite (Nat.eqb_sym c (ra x)), (Nat.eqb_sym c (rb x)).
  destruct (Nat.eqb_spec (ra x) c) as [E1|]; destruct (Nat.eqb_spec (rb x) c) as [E2|]; try congruence;
    try rewrite <- E1; try rewrite <- E2; field.
Qed.

(** ** Witnesses for the constant rates *)
(** Dissociation with reactant grouped, case not covered by the guard. *)
Section DCIN.
Variables (inS U : nat -> bool) (y : drx) (conc : nat -> R) (d : nat).
Hypothesis HS : subOfD inS U y.
Hypothesis Hd : U d = true.
Notation ax := (yaxes y).

Lemma drow o s k V : capply ([(o, Some (rp y), dcf y (Co 0 0 s (S k)) * drate y / V)] ++
    flat_map (fun i => guard (mr y i) [(o, mr y i, dcf y (Co (S i) 0 s (S k)) * drate y / V)]) ax) conc d
  = ind (oeqb o d) * (dfluxSum y conc s (S k) / V).
Proof using.
  rewrite capply_app, capply_cons, capply_nil, capply_flat_map. cbn [colval].
  unfold dfluxSum, cR, cmR. rewrite (Rsum_ext ax _ (fun i => ind (oeqb o d) * drate y * / V * (dcf y (Co (S i) 0 s (S k)) * cval conc (mr y i)))).
  - rewrite Rsum_scal. unfold Rdiv. ring.
  - intros i _. rewrite capply_guard, capply_cons, capply_nil, <- valid_col. unfold Rdiv. ring.
Qed.
Lemma drow_neg o s k V : capply ([(o, Some (rp y), - (dcf y (Co 0 0 s (S k)) * drate y / V))] ++
    flat_map (fun i => guard (mr y i) [(o, mr y i, - (dcf y (Co (S i) 0 s (S k)) * drate y / V))]) ax) conc d
  = ind (oeqb o d) * - (dfluxSum y conc s (S k) / V).
Proof using.
  rewrite capply_app, capply_cons, capply_nil, capply_flat_map. cbn [colval].
  unfold dfluxSum, cR, cmR. rewrite (Rsum_ext ax _ (fun i => - (ind (oeqb o d) * drate y * / V) * (dcf y (Co (S i) 0 s (S k)) * cval conc (mr y i)))).
  - rewrite Rsum_scal. unfold Rdiv. ring.
  - intros i _. rewrite capply_guard, capply_cons, capply_nil, <- valid_col. unfold Rdiv. ring.
Qed.

Lemma dconst_in : inS (rp y) = true -> (inS (dpid y 0) = false \/ inS (dpid y 1) = false) ->
  (inS (dpid y 0) = false \/ (forall k, dmp y 0 k = None) \/ (forall k, mr y k = None)) ->
  capply (dissConst inS y conc) conc d = acc (dissFlux y conc) d.
Proof.
  intros Hr Hout H0.
  assert (E : dissConst inS y conc = dconstIn inS y).
  { unfold dissConst. rewrite Hr. cbn [negb andb]. destruct Hout as [->| ->]; [reflexivity|].
    rewrite Bool.andb_false_r. reflexivity. }
  rewrite E, acc_dissFlux. unfold dconstIn, dw.
  rewrite !capply_app, !capply_when, !capply_cons, !capply_nil, !capply_flat_map.
  rewrite !Rplus_0_r. cbn [oeqb colval].
  rewrite !Rmult_assoc. rewrite !(dpin_pid inS U y d HS Hd).
  rewrite (Rsum_ext ax (fun a => capply (guard (mr y a) _) conc d)
    (fun i => (- (ind (rp y =? d)%nat / vr y) + ind (dpid y 0 =? d)%nat / dvp y 0 + ind (dpid y 1 =? d)%nat / dvp y 1)
       * (dcf y (Co (S i) 0 0 0) * cval conc (mr y i)) * drate y)).
  2:{ intros i _. rewrite capply_guard, !capply_app, !capply_when, !capply_cons, !capply_nil. cbn [oeqb].
      rewrite !Rplus_0_r, !Rmult_assoc, !(dpin_pid inS U y d HS Hd), <- valid_col. unfold Rdiv. ring. }
  rewrite Rsum_scal_r, Rsum_scal.
  rewrite (Rsum_ext ax (fun a => capply (guard (mr y a) _ ++ _) conc d)
    (fun k => - (ind (oeqb (mr y k) d) * (dfluxSum y conc 0 (S k) / vr y))
      + ind (oeqb (dmp y 0 k) d) * (dfluxSum y conc 1 (S k) / dvp y 0)
      + ind (oeqb (dmp y 1 k) d) * (dfluxSum y conc 2 (S k) / dvp y 1))).
  2:{ intros k _. rewrite !capply_app, !capply_when, !capply_guard.
      rewrite drow_neg, (drow (dmp y 1 k)).
      rewrite Rplus_assoc. f_equal; [rewrite ind_valid_sq; ring|]. f_equal.
      2:{ rewrite ind_valid_sq, (dpin_mp inS U y d HS Hd). reflexivity. }
      (* the first product *)
      rewrite <- (dpin_mp inS U y d HS Hd 0 k).
      destruct H0 as [H0|[H0|H0]].
      - rewrite H0. unfold ind at 1 3. ring.
      - rewrite H0. cbn [valid oeqb]. unfold ind at 2 4. ring.
      - replace (flat_map (fun i => guard (mr y i) [(mr y k, mr y i, dcf y (Co (S i) 0 1 (S k)) * drate y / dvp y 0)]) ax)
          with (flat_map (fun i => guard (mr y i) [(dmp y 0 k, mr y i, dcf y (Co (S i) 0 1 (S k)) * drate y / dvp y 0)]) ax)
          by (apply flat_map_ext; intros i; rewrite !H0; reflexivity).
        rewrite drow, ind_valid_sq. reflexivity. }
  rewrite <- !Rplus_assoc. f_equal. unfold dfluxSum, cR, cmR. unfold Rdiv. ring.
Qed.
End DCIN.
