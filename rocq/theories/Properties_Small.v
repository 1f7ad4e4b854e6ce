(** Properties C10, C11, C17, C46, C47 and C12 for the small reactions:
    nucleation, trap mutation, constant rates, left-side rates, sinks. *)
From Verif Require Import SmallExamples.
Open Scope R_scope.

(** * C10 *)
Theorem c10_conserved : forall cls w u conc, NoDup cls -> In (nR u) cls -> In (nP u) cls ->
  w (nP u) = 2 * w (nR u) -> total cls w (acc (nuFlux u conc)) = 0.
Proof. exact nu_conserved. Qed.
Print Assumptions c10_conserved.

Theorem c10_rate : forall u conc, nR u <> nP u -> 0 <= conc (nR u) -> 0 <= nRate u ->
  acc (nuFlux u conc) (nR u) = - Rmin (conc (nR u)) (2 * nRate u) /\
  acc (nuFlux u conc) (nP u) = Rmin (conc (nR u)) (2 * nRate u) / 2 /\
  0 <= - acc (nuFlux u conc) (nR u) <= conc (nR u).
Proof. exact nu_loss. Qed.
Print Assumptions c10_rate.

Theorem c10_continuous : forall u conc conc', nR u <> nP u ->
  Rabs (acc (nuFlux u conc) (nR u) - acc (nuFlux u conc') (nR u)) <= Rabs (conc (nR u) - conc' (nR u)).
Proof. exact nu_continuous. Qed.
Print Assumptions c10_continuous.

Theorem c10_jacobian : forall u conc r j, conc (nR u) <> 2 * nRate u ->
  is_partial (fun c => acc (nuFlux u c) r) conc j (jacc (nuPartials u conc) r j).
Proof. exact nu_jacobian. Qed.
Print Assumptions c10_jacobian.

Theorem c10_reduced : forall u conc r j,
  jacc (nuReduced u conc) r j = if (r =? j)%nat then jacc (nuPartials u conc) r j else 0.
Proof. exact nu_reduced. Qed.
Print Assumptions c10_reduced.

(** Xe_1 (cluster 0) -> Xe_2 (cluster 1): 3 single atoms, rate 1. *)
Example c10_example : let u := NU 0 1 1 in
  acc (nuFlux u (fun _ => 3)) 0 = - 2 /\ acc (nuFlux u (fun _ => 3)) 1 = 1 /\
  acc (nuFlux u (fun _ => 1)) 0 = - 1 /\ jacc (nuPartials u (fun _ => 1)) 1 0 = 1 / 2.
Proof.
  cbv zeta. repeat split.
  1-3: unfold nuFlux; cbn [nR nP nRate]; destruct (Rgt_dec _ _); try lra; rewrite !acc_cons, acc_nil; cbn; lra.
  - unfold nuPartials. cbn [nR nP nRate]. destruct (Rgt_dec _ _); [lra|].
    rewrite !jacc_cons, jacc_nil. cbn. lra.
Qed.

(** * C11 *)
Theorem c11_conserved : forall cls w D t conc, NoDup cls -> In (heCl t) cls -> In (heVCl t) cls -> In (iCl t) cls ->
  w (heVCl t) + w (iCl t) = w (heCl t) -> total cls w (acc (tmFlux D t conc)) = 0.
Proof. exact tm_conserved. Qed.
Print Assumptions c11_conserved.

(** Helium, and vacancies minus interstitials. *)
Example c11_conserved_example :
  total [0; 1; 2]%nat (fun c => match c with 2%nat => 0 | _ => 2 end) (acc (tmFlux tmD tmT tmOne)) = 0 /\
  total [0; 1; 2]%nat (fun c => match c with 0%nat => 0 | 1%nat => 1 | _ => -1 end) (acc (tmFlux tmD tmT tmOne)) = 0 /\
  acc (tmFlux tmD tmT tmOne) 1 = 1000.
Proof.
  repeat split.
  - apply tm_conserved; cbn; try tauto; try lra. repeat constructor; cbn; lia.
  - apply tm_conserved; cbn; try tauto; try lra. repeat constructor; cbn; lia.
  - unfold tmFlux. change (enabled tmD tmT) with true. cbn [when]. cbv zeta. rewrite !acc_cons, acc_nil.
    unfold applied, tmOne. cbn. lra.
Qed.

(** The reaction acts exactly when this helium size is enabled with this
    vacancy number. *)
Theorem c11_active_iff : forall D t conc, heVCl t <> heCl t -> iCl t <> heCl t ->
  applied D t <> 0 -> conc (heCl t) <> 0 ->
  (acc (tmFlux D t conc) (heCl t) <> 0 <->
   tmEnabled D (heAmount t - 1) = true /\ tmVSizes D (heAmount t - 1) = vSize t).
Proof.
  intros D t conc H1 H2 Ha Hc. unfold tmFlux, enabled.
  apply Nat.eqb_neq in H1, H2.
  destruct (tmEnabled D _), (Nat.eqb_spec (tmVSizes D (heAmount t - 1)) (vSize t)); cbn [andb when].
  - split; [auto|]. intros _. cbv zeta. rewrite !acc_cons, acc_nil, Nat.eqb_refl, H1, H2. unfold ind.
    intros E. assert (applied D t * conc (heCl t) = 0) by lra. apply Rmult_integral in H. tauto.
  - split; [intros H; elim H; reflexivity|intros [_ E]; contradiction].
  - split; [intros H; elim H; reflexivity|intros [E _]; discriminate].
  - split; [intros H; elim H; reflexivity|intros [E _]; discriminate].
Qed.
Print Assumptions c11_active_iff.

Example c11_active_example : acc (tmFlux tmD tmT tmOne) 0 = - 1000 /\
  acc (tmFlux tmD (TM 0 1 2 3 1 1000) tmOne) 0 = 0.
Proof.
  split; [|reflexivity]. unfold tmFlux. change (enabled tmD tmT) with true. cbn [when]. cbv zeta. rewrite !acc_cons, acc_nil.
  unfold applied, tmOne. cbn. lra.
Qed.

(** Jacobian for a fixed left-side rate. Missing: the dependence of that rate on
    the concentrations, see the refutation. *)
Theorem c11_jacobian_partial : forall D t conc r j,
  is_partial (fun c => acc (tmFlux D t c) r) conc j (jacc (tmPartials D t) r j).
Proof. exact tm_jacobian. Qed.
Print Assumptions c11_jacobian_partial.

Example c11_jacobian_example : jacc (tmPartials tmD tmT) 1 0 = 1000.
Proof. unfold tmPartials. change (enabled tmD tmT) with true. cbn [when]. rewrite !jacc_cons, jacc_nil. unfold applied. cbn. lra. Qed.

(** For the desorbing cluster the rate is (1-p)/p times the left-side rate,
    which is computed from the concentrations before every flux evaluation. *)
Theorem c11_jacobian_refuted : exists D t (x : prx) conc r j,
  (forall c, lsRate (D c) = prodLeft x c (heCl t)) /\
  ~ is_partial (fun c => acc (tmFlux (D c) t c) r) conc j (jacc (tmPartials (D conc) t) r j).
Proof.
  exists lsD, lsT, lsX, tmOne, 0%nat, 3%nat. split; [reflexivity|].
  rewrite ls_entry. intros H. pose proof (is_partial_unique H ls_partial). lra.
Qed.
Print Assumptions c11_jacobian_refuted.

Theorem c11_reduced : forall D t r j, heVCl t <> heCl t -> iCl t <> heCl t ->
  jacc (tmReduced D t) r j = if (r =? j)%nat then jacc (tmPartials D t) r j else 0.
Proof. exact tm_reduced. Qed.
Print Assumptions c11_reduced.

Example c11_reduced_example : heVCl tmT <> heCl tmT /\ iCl tmT <> heCl tmT.
Proof. cbn. lia. Qed.

(** The left-side reactions keep the fraction [portion] of the losses of the
    desorbing cluster. *)
Theorem c11_share : forall D t largest, heCl t = desorpId D -> portion D <> 0 -> lsRate D <> 0 ->
  tmRate t = tmComputeRate D t largest -> disap D = 1 ->
  lsRate D / (lsRate D + applied D t) = portion D.
Proof. exact tm_share. Qed.
Print Assumptions c11_share.

Example c11_share_example : lsRate (lsD tmOne) / (lsRate (lsD tmOne) + applied (lsD tmOne) lsT) = 1 / 2.
Proof. apply (tm_share (lsD tmOne) lsT 1); cbn; unfold prodLeft, tmOne; cbn; try reflexivity; lra. Qed.

(** * C12, small reactions *)
Theorem c12_trap_mutation : forall D t o o' v, In (o, o', v) (tmPartials D t) -> In (o, o') (tmConn t).
Proof. exact tm_contained. Qed.
Print Assumptions c12_trap_mutation.
Theorem c12_trap_mutation_reduced : forall D t o o' v, In (o, o', v) (tmReduced D t) -> In (o, o') (tmConnRed t).
Proof.
  intros D t o o' v. unfold tmReduced, tmConnRed. destruct (enabled D t); cbn [when]; [|intros []].
  intros [E|[]]; inversion E; subst; cbn; tauto.
Qed.
Print Assumptions c12_trap_mutation_reduced.
Theorem c12_nucleation : forall u conc o o' v, In (o, o', v) (nuPartials u conc) -> In (o, o') (nuConn u).
Proof.
  intros u conc o o' v. unfold nuPartials. destruct (Rgt_dec _ _); [intros []|].
  intros [E|[E|[]]]; inversion E; subst; cbn; tauto.
Qed.
Print Assumptions c12_nucleation.
Theorem c12_nucleation_reduced : forall u conc o o' v, In (o, o', v) (nuReduced u conc) -> In (o, o') (nuConnRed u).
Proof.
  intros u conc o o' v. unfold nuReduced, nuConnRed. destruct (Rgt_dec _ _); [intros []|].
  destruct (Nat.eqb_spec (nP u) (nR u)); cbn [when app].
  - intros [E|[E|[]]]; inversion E; subst; cbn; tauto.
  - intros [E|[]]; inversion E; subst; cbn; tauto.
Qed.
Print Assumptions c12_nucleation_reduced.
Theorem c12_sink : forall k conc r j o o' v,
  is_partial (fun c => acc (sinkFlux k c) r) conc j (jacc (sinkPartials k) r j) /\
  (In (o, o', v) (sinkPartials k) -> In (o, o') (sinkConn k)).
Proof.
  intros. split; [apply sink_jacobian|]. intros [E|[]]; inversion E; subst; cbn; tauto.
Qed.
Print Assumptions c12_sink.
Example c12_small_example : In (Some 1%nat, Some 0%nat, 1 / 2) (nuPartials (NU 0 1 1) (fun _ => 1)) /\
  In (Some 2%nat, Some 0%nat, applied tmD tmT) (tmPartials tmD tmT) /\
  In (Some 4%nat, Some 4%nat, - 2) (sinkPartials (SK 4 2)).
Proof.
  split; [|split].
  - unfold nuPartials. cbn [nR nRate]. destruct (Rgt_dec _ _); [lra|]. cbn; tauto.
  - unfold tmPartials. change (enabled tmD tmT) with true. cbn; tauto.
  - cbn; tauto.
Qed.

(** * C17 *)
Theorem c17_first_reactant_inside : forall inS U x conc d, subOf inS U x -> U d = true -> compactProducts x ->
  inS (ra x) = true -> inS (rb x) = false ->
  capply (prodConst inS x conc) conc d = acc (prodFlux x conc) d.
Proof. exact const_first. Qed.
Print Assumptions c17_first_reactant_inside.

Theorem c17_no_reactant_inside : forall inS U x conc d, subOf inS U x -> U d = true -> compactProducts x ->
  inS (ra x) = false -> inS (rb x) = false ->
  capply (prodConst inS x conc) conc d = acc (prodFlux x conc) d.
Proof. exact const_out. Qed.
Print Assumptions c17_no_reactant_inside.

(** Second reactant inside: one species axis, or second reactant ungrouped.
    Missing: several axes with the second reactant grouped. *)
Theorem c17_second_reactant_inside_partial : forall inS U x conc d, subOf inS U x -> U d = true -> compactProducts x ->
  inS (ra x) = false -> inS (rb x) = true -> xna x = 1%nat \/ (forall i, mb x i = None) ->
  capply (prodConst inS x conc) conc d = acc (prodFlux x conc) d.
Proof.
  intros inS U x conc d HS Hd Hc Ha Hb H. apply (const_second inS U x conc d HS Hd Hc Ha Hb).
  apply Rsum_ext. intros i Hi. destruct H as [H|H].
  - unfold xaxes in Hi. rewrite H in Hi. destruct Hi as [<-|[]]. f_equal.
    unfold dB1code, dB1, xaxes. rewrite H. cbn [seq Rsum]. reflexivity.
  - rewrite H. cbn [cval]. ring.
Qed.
Print Assumptions c17_second_reactant_inside_partial.

Theorem c17_second_reactant_inside_refuted : exists r x inS U conc d, goodPR r /\ cf x = prodCoefs r /\
  subOf inS U x /\ U d = true /\ compactProducts x /\ inS (ra x) = false /\ inS (rb x) = true /\
  capply (prodConst inS x conc) conc d <> acc (prodFlux x conc) d.
Proof.
  exists secR, secX, (mem [1%nat]), (mem [1; 4]%nat), secConc, 1%nat.
  split; [exact secGood|]. split; [reflexivity|]. split; [apply secSub|]. split; [reflexivity|].
  split; [intros H; reflexivity|]. split; [reflexivity|]. split; [reflexivity|]. exact sec_wrong.
Qed.
Print Assumptions c17_second_reactant_inside_refuted.

(** Both reactants inside, the product outside ("Code not setup to deal with
    this", Reaction.tpp:1298): nothing is written. *)
Theorem c17_both_reactants_inside_refuted : exists r x inS U conc d, goodPR r /\ cf x = prodCoefs r /\
  subOf inS U x /\ U d = true /\ productInSub inS x = false /\ noProd x = false /\
  capply (prodConst inS x conc) conc d <> acc (prodFlux x conc) d.
Proof.
  exists oneR, oneX, (mem [0; 1; 3]%nat), (mem [0; 1; 3]%nat), onesConc, 0%nat.
  split; [exact oneGood|]. split; [reflexivity|]. split; [apply oneSub; reflexivity|].
  repeat (split; [reflexivity|]). unfold oneX. rewrite both_in_none. fold oneX.
  pose proof one_flux_val as H. fold onesConc in H. rewrite H. lra.
Qed.
Print Assumptions c17_both_reactants_inside_refuted.

Example c17_production_example : subOf (mem [0]%nat) (mem [0]%nat) oneX /\ subOf (mem [2; 4]%nat) (mem [2; 4]%nat) oneX /\
  subOf (mem [1; 3]%nat) (mem [1; 3]%nat) oneX /\ compactProducts oneX /\ xna oneX = 1%nat /\
  capply (prodConst (mem [0]%nat) oneX onesConc) onesConc 0 = - 2.
Proof.
  split; [apply oneSub; reflexivity|]. split; [apply oneSub; reflexivity|]. split; [apply oneSub; reflexivity|].
  split; [exact oneCompact|]. split; [reflexivity|].
  rewrite (const_first (mem [0]%nat) (mem [0]%nat) oneX onesConc 0); try reflexivity.
  - exact one_flux_val.
  - apply oneSub; reflexivity.
  - exact oneCompact.
Qed.

Theorem c17_dissociation_outside : forall inS U y conc d, subOfD inS U y -> U d = true -> inS (rp y) = false ->
  capply (dissConst inS y conc) conc d = acc (dissFlux y conc) d.
Proof. exact dconst_out. Qed.
Print Assumptions c17_dissociation_outside.

(** Reactant inside. Missing: first product inside and both it and the reactant
    grouped. *)
Theorem c17_dissociation_inside_partial : forall inS U y conc d, subOfD inS U y -> U d = true -> inS (rp y) = true ->
  (inS (dpid y 0) = false \/ inS (dpid y 1) = false) ->
  (inS (dpid y 0) = false \/ (forall k, dmp y 0 k = None) \/ (forall k, mr y k = None)) ->
  capply (dissConst inS y conc) conc d = acc (dissFlux y conc) d.
Proof. exact dconst_in. Qed.
Print Assumptions c17_dissociation_inside_partial.

Theorem c17_dissociation_inside_refuted : exists r y inS U conc d, goodDR r /\ dcf y = dissCoefs r /\
  subOfD inS U y /\ U d = true /\ inS (rp y) = true /\ inS (dpid y 1) = false /\
  capply (dissConst inS y conc) conc d <> acc (dissFlux y conc) d.
Proof.
  exists swD, swY, (mem [1; 2]%nat), (mem [1; 2; 3; 4]%nat), swConc, 3%nat.
  split; [exact swGood|]. split; [reflexivity|]. split; [apply swSub|]. repeat (split; [reflexivity|]). exact sw_wrong.
Qed.
Print Assumptions c17_dissociation_inside_refuted.

Example c17_dissociation_example : subOfD (mem [1; 2]%nat) (mem [1; 2; 3; 4]%nat) swY /\
  subOfD (mem [0]%nat) (mem [0]%nat) oneY /\
  capply (dissConst (mem [0]%nat) oneY onesConc) onesConc 0 = 2.
Proof.
  assert (S0 : subOfD (mem [0]%nat) (mem [0]%nat) oneY).
  { constructor; try reflexivity.
    - intros [|k] d H; inversion H; subst; reflexivity.
    - intros [|p] [|k] m H; inversion H; subst; reflexivity. }
  split; [apply swSub|]. split; [exact S0|].
  rewrite (dconst_out (mem [0]%nat) (mem [0]%nat) oneY onesConc 0 S0) by reflexivity. exact one_dflux_val.
Qed.

(** Trap mutation: the bubble is outside. Missing: bubble inside. *)
Theorem c17_trap_mutation_partial : forall D t inS U conc d,
  U (heCl t) = inS (heCl t) -> U (heVCl t) = inS (heVCl t) -> U (iCl t) = inS (iCl t) -> U d = true ->
  inS (heCl t) = false -> inS (heVCl t) = false ->
  capply (tmConst inS D t conc) conc d = acc (tmFlux D t conc) d.
Proof. exact tm_const. Qed.
Print Assumptions c17_trap_mutation_partial.

Example c17_trap_mutation_example : capply (tmConst (mem [2%nat]) tmD tmT tmOne) tmOne 2 = 1000.
Proof.
  rewrite (tm_const tmD tmT (mem [2%nat]) (mem [2%nat]) tmOne 2); try reflexivity.
  unfold tmFlux. change (enabled tmD tmT) with true. cbn [when]. cbv zeta. rewrite !acc_cons, acc_nil.
  unfold applied, tmOne. cbn. lra.
Qed.

Theorem c17_trap_mutation_refuted : exists D t inS conc, inS (heCl t) = false /\ inS (heVCl t) = true /\
  capply (tmConst inS D t conc) conc (heVCl t) <> acc (tmFlux D t conc) (heVCl t).
Proof. exists tmD, tmT, (mem [1%nat]), tmOne. split; [reflexivity|]. split; [reflexivity|]. exact tm_bubble_missed. Qed.
Print Assumptions c17_trap_mutation_refuted.

(** * C46 *)
(** Left-side rate times concentration is the loss, for ungrouped clusters.
    Missing: grouped clusters; self-reactions are refuted. *)
Theorem c46_left_side_partial : forall x conc c, ungrouped x -> va x = 1 -> vb x = 1 -> ra x <> rb x ->
  prodLoss x conc c = prodLeft x conc c * conc c.
Proof. exact prod_left. Qed.
Print Assumptions c46_left_side_partial.

Example c46_left_side_example : ungrouped lsX /\ va lsX = 1 /\ ra lsX <> rb lsX /\ prodLeft lsX (fun _ => 5) 0 = 5.
Proof. repeat split; try reflexivity; [discriminate|]. unfold prodLeft; cbn. lra. Qed.

Theorem c46_self_reaction_refuted : exists x conc, ungrouped x /\ va x = 1 /\ vb x = 1 /\ ra x = rb x /\
  prodLoss x conc (ra x) <> prodLeft x conc (ra x) * conc (ra x).
Proof.
  exists selfX, tmOne. split; [split; reflexivity|]. repeat (split; [reflexivity|]).
  destruct selfX_left as [H H']. cbn [ra selfX]. rewrite H, H'. lra.
Qed.
Print Assumptions c46_self_reaction_refuted.

(** * C47 *)
Theorem c47_selected_iff : forall depth spacing dl, selects depth spacing dl = true <->
  dl <> 0 /\ depth - spacing - 1 / 100 < dl < depth + 1 / 100.
Proof. exact selects_spec. Qed.
Print Assumptions c47_selected_iff.

Theorem c47_every_depth_selected : forall (x : nat -> R) n dl, dl <> 0 -> x 0%nat < dl <= x n ->
  exists i, (1 <= i <= n)%nat /\ selects (x i) (x i - x (i - 1)%nat) dl = true.
Proof. exact selects_cover. Qed.
Print Assumptions c47_every_depth_selected.

Example c47_example : exists i, (1 <= i <= 4)%nat /\ selects (INR i) (INR i - INR (i - 1)) (5 / 2) = true.
Proof. apply (selects_cover INR 4 (5 / 2)); cbn; lra. Qed.

(** Not exactly one grid point: every depth on a grid point is active twice. *)
Theorem c47_only_one_refuted : exists (x : nat -> R) dl, (forall i, x i < x (S i)) /\ 0 < dl /\ exists i j, i <> j /\
  selects (x i) (x i - x (i - 1)%nat) dl = true /\ selects (x j) (x j - x (j - 1)%nat) dl = true.
Proof.
  exists INR, 2. split; [intros i; rewrite S_INR; lra|]. split; [lra|]. exists 2%nat, 3%nat. split; [discriminate|].
  split; apply selects_spec; cbn; lra.
Qed.
Print Assumptions c47_only_one_refuted.
