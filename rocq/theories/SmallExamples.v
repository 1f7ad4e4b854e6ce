(** Concrete cases for the constant rates, trap mutation, nucleation and
    left-side rates. *)
From Verif Require Export SmallProofs.
Open Scope R_scope.

Definition mem (l : list nat) (i : nat) : bool := existsb (Nat.eqb i) l.

(** ** Second reactant inside, the first one grouped on another axis:
    A = (1, [1,3)), B = ([1,3), 1), product (3, 3). Moments 3 (A, axis 1), 4 (B, axis 0). *)
Definition secIv (c k : nat) : ival :=
  match c, k with
  | 0, 0 => Iv 1 2 | 0, 1 => Iv 1 3
  | 1, 0 => Iv 1 3 | 1, 1 => Iv 1 2
  | 2, 0 => Iv 3 4 | 2, 1 => Iv 3 4
  | _, _ => Iv 0 1
  end%nat.
Definition secMid (c k : nat) : option nat :=
  match c, k with 0, 1 => Some 3 | 1, 0 => Some 4 | _, _ => None end%nat.
Definition secR : preact := PR 2 (secIv 0) (secIv 1) (secIv 2)
  (fun _ => Iv 0 1) (fun _ => 1 / 4) (fun _ => 1 / 4) (fun _ => 1 / 4) (fun _ => 1 / 4) true false false.
Definition secXof (C : cidx -> R) : prx := PX 2 0 1 (secMid 0) (secMid 1)
  (fun p => match p with O => Some 2%nat | _ => None end) (fun _ => secMid 2) 2 2 (fun _ => 1) 1 C.
Definition secX : prx := secXof (prodCoefs secR).
Definition secConc (i : nat) : R := match i with 3%nat => 1 | 4%nat => 1 | _ => 0 end.

Lemma secGood : goodPR secR.
Proof.
  apply goodPR_intro.
  - reflexivity.
  - intros [|[|i]] Hi; cbn in Hi; [| |lia].
    + exists (1, 2, 3, 0)%Z. apply balanced_In. rewrite !pts_In. cbn. lia.
    + exists (2, 1, 3, 0)%Z. apply balanced_In. rewrite !pts_In. cbn. lia.
  - discriminate.
  - intros i. cbn. lra.
Qed.
Lemma secSub C : subOf (mem [1%nat]) (mem [1; 4]%nat) (secXof C).
Proof.
  constructor; try reflexivity.
  - intros p d H. destruct p; inversion H; subst; reflexivity.
  - intros k d H. destruct k as [|[|k]]; inversion H; subst; reflexivity.
  - intros k d H. destruct k as [|[|k]]; inversion H; subst; reflexivity.
  - intros p k d m H H'. destruct p, k as [|[|k]]; inversion H; inversion H'.
Qed.
Lemma sec_flux C : acc (prodFlux (secXof C) secConc) 1 = - (C (Co 2 1 0 0)%nat / 2).
Proof.
  unfold prodFlux, acc, fluxSum, xaxes, cmR1, cmR2, cR1, cR2.
  cbn [app flat_map seq xna ra rb ma mb pid mp va vb vp rate cf secXof secMid guard when valid secConc
       Rsum oeqb Nat.eqb andb cval fst snd]. cbn [two seq flat_map gadd guard app Rsum Nat.eqb]. lra.
Qed.
Lemma sec_const C : capply (prodConst (mem [1%nat]) (secXof C) secConc) secConc 1 = 0.
Proof.
  unfold prodConst. cbn [ra rb secXof]. change (mem [1%nat] 0) with false. change (mem [1%nat] 1) with true. cbv iota.
  unfold constSecond, capply, xaxes, dB0, dB1, dB1code, xaxes, cmR1, cmR2, cR1, cR2, pin.
  cbn [app flat_map seq xna ra rb ma mb pid mp va vb vp rate cf secXof secMid guard when valid secConc
       Rsum oeqb Nat.eqb andb cval fst snd two mem existsb orb]. lra.
Qed.
Lemma sec_coef : prodCoefs secR (Co 2 1 0 0) = 1 / 4.
Proof.
  rewrite (coef_correct secR secGood) by (cbn; lia).
  change (stale 2 1 0 0) with false. unfold specCoef, axsum.
  cbn [axes na secR seq Rprod slotd]. rewrite !msum_balanced.
  replace (balanced (cl1 secR 0) (cl2 secR 0) (q1 secR 0) (q2 secR 0)) with [(1, 2, 3, 0)]%Z by reflexivity.
  replace (balanced (cl1 secR 1) (cl2 secR 1) (q1 secR 1) (q2 secR 1)) with [(2, 1, 3, 0)]%Z by reflexivity.
  cbn [Rsum]. unfold slotw, wt, imean. cbn [Nat.eqb cl1 cl2 secR secIv ib ie]. zev. lra.
Qed.
Lemma sec_wrong : capply (prodConst (mem [1%nat]) secX secConc) secConc 1 <> acc (prodFlux secX secConc) 1.
Proof. unfold secX. rewrite sec_const, sec_flux, sec_coef. lra. Qed.

(** ** X_[3,5) -> X_[2,4) + X_1 with the grouped product first; X_1 is outside. *)
Definition swD : dreact := DR 1 (fun k => niv oneNet 2 k) (fun _ => Iv 0 1) (fun k => niv oneNet 1 k)
  (fun k => niv oneNet 0 k) (fun _ => 1 / 4) (fun _ => 1 / 4) (fun _ => 1 / 4).
Definition swYof (C : cidx -> R) : drx := DX 1 2 (oneMid 2) (fun p => match p with O => 1%nat | _ => 0%nat end)
  (fun p => match p with O => oneMid 1 | _ => oneMid 0 end) 2
  (fun p => match p with O => 2 | _ => 1 end) 1 C.
Definition swY : drx := swYof (dissCoefs swD).
Definition swConc (i : nat) : R := match i with 4%nat => 1 | _ => 0 end.
Lemma swGood : goodDR swD.
Proof.
  apply goodDR_intro.
  - intros [|i] Hi; cbn in Hi; [|lia]. exists (3, 0, 2, 1)%Z. apply balanced_In. rewrite !pts_In. cbn. lia.
  - intros i. cbn. lra.
Qed.
Lemma swSub C : subOfD (mem [1; 2]%nat) (mem [1; 2; 3; 4]%nat) (swYof C).
Proof.
  constructor; try reflexivity.
  - intros [|p]; reflexivity.
  - intros [|k] d H; inversion H; subst; reflexivity.
  - intros [|p] [|k] m H; inversion H; subst; reflexivity.
Qed.
Lemma sw_flux C : acc (dissFlux (swYof C) swConc) 3 = C (Co 1 0 1 1)%nat / 2.
Proof.
  unfold dissFlux, acc, dfluxSum, yaxes, cR, cmR.
  cbn [app flat_map seq yna rp mr dpid dmp vr dvp drate dcf swYof oneMid guard when valid swConc
       Rsum oeqb Nat.eqb Nat.leb andb cval gadd fst snd]. lra.
Qed.
Lemma sw_const C : capply (dissConst (mem [1; 2]%nat) (swYof C) swConc) swConc 3 = 0.
Proof.
  unfold dissConst, dconstIn, capply, yaxes.
  cbn [app flat_map seq yna rp mr dpid dmp vr dvp drate dcf swYof oneMid guard when valid swConc
       Rsum oeqb Nat.eqb andb orb negb cval gadd fst snd mem existsb]. lra.
Qed.
Lemma sw_coef : dissCoefs swD (Co 1 0 1 1) = 2.
Proof.
  rewrite (dcoef_correct swD swGood) by (cbn; lia).
  unfold dspecCoef, daxsum. cbn [daxes dna swD seq Rprod dslotd dd1]. rewrite !msum_balanced.
  replace (balanced (dcl swD 0) (dcl2 swD 0) (dp1 swD 0) (dp2 swD 0)) with [(3, 0, 2, 1); (4, 0, 3, 1)]%Z by reflexivity.
  cbn [Rsum]. unfold dslotw, wt, imean. cbn [Nat.eqb dcl dp1 swD niv oneNet oneIv ib ie]. zev. lra.
Qed.
Lemma sw_wrong : capply (dissConst (mem [1; 2]%nat) swY swConc) swConc 3 <> acc (dissFlux swY swConc) 3.
Proof. unfold swY. rewrite sw_const, sw_flux, sw_coef. lra. Qed.

(** ** X_1 + X_[2,4) -> X_[3,5): membership patterns. *)
Definition onesConc (i : nat) : R := if Nat.leb i 2 then 1 else 0.
Lemma oneSub C l : (mem l 1%nat = mem l 3%nat) -> (mem l 2%nat = mem l 4%nat) -> subOf (mem l) (mem l) (oneXof C).
Proof.
  intros H1 H2. constructor; try reflexivity.
  - intros k d H. destruct k as [|k]; inversion H.
  - intros k d H. destruct k as [|k]; inversion H; subst. symmetry; exact H1.
  - intros p k d m H H'. destruct p, k as [|k]; inversion H; inversion H'; subst. symmetry; exact H2.
Qed.
Lemma both_in_none C : capply (prodConst (mem [0; 1; 3]%nat) (oneXof C) onesConc) onesConc 0 = 0.
Proof. reflexivity. Qed.
Lemma oneCompact : compactProducts oneX.
Proof. unfold compactProducts. intros H. reflexivity. Qed.

(** ** Trap mutation He_2 -> He_2V + I: clusters 0, 1, 2. *)
Definition tmD : tmdata := TD 7 (1 / 2) 3 1 (fun _ => 1%nat) (fun l => (l =? 1)%nat).
Definition tmT : tmx := TM 0 1 2 2 1 1000.
Definition tmOne (i : nat) : R := 1.
(** A reaction by which the desorbing cluster 0 also disappears: 0 + 3. *)
Definition lsX : prx := PX 0 0 3 (fun _ => None) (fun _ => None) (fun _ => None) (fun _ _ => None) 1 1 (fun _ => 1) 1 (fun _ => 1).
Definition lsD (conc : nat -> R) : tmdata := TD 0 (1 / 2) (prodLeft lsX conc 0) 1 (fun _ => 1%nat) (fun l => (l =? 1)%nat).
Definition lsT : tmx := TM 0 1 2 2 1 (tmComputeRate (lsD tmOne) (TM 0 1 2 2 1 0) 1).
Lemma ls_rate : tmRate lsT = 1.
Proof. unfold lsT, tmComputeRate, lsD. cbn. lra. Qed.
Lemma ls_partial : is_partial (fun c => acc (tmFlux (lsD c) lsT c) 0) tmOne 3 (- 1).
Proof.
  apply (@pd_fun_ext tmOne 3%nat (fun c => - (c 3%nat * c 0%nat))).
  - intros c. unfold tmFlux. change (enabled (lsD c) lsT) with true. cbn [when]. cbv zeta.
    rewrite !acc_cons, acc_nil. unfold applied. rewrite ls_rate.
    cbn [heCl lsT desorpId lsD Nat.eqb lsRate disap heVCl iCl]. unfold prodLeft. cbn [ra rb lsX rate cf Nat.eqb]. unfold ind. lra.
  - eapply pd_eq.
    + apply pd_opp, pd_mult; apply pd_var.
    + unfold ind, tmOne. cbn. lra.
Qed.
Lemma ls_entry : jacc (tmPartials (lsD tmOne) lsT) 0 3 = 0.
Proof. unfold tmPartials. change (enabled (lsD tmOne) lsT) with true. cbn [when]. rewrite !jacc_cons, jacc_nil. cbn. lra. Qed.

Lemma tm_bubble_missed :
  capply (tmConst (mem [1%nat]) tmD tmT tmOne) tmOne 1 <> acc (tmFlux tmD tmT tmOne) 1.
Proof.
  unfold tmConst, tmFlux. change (enabled tmD tmT) with true. cbn [when tmT heCl heVCl iCl mem existsb Nat.eqb orb negb andb].
  cbv zeta. rewrite !acc_cons, acc_nil. cbn [app]. rewrite capply_nil. unfold applied. cbn. unfold tmOne. lra.
Qed.

(** A mutation depth lying on a grid point is enabled at two grid points. *)
Lemma selects_twice : selects 2 1 2 = true /\ selects 3 1 2 = true.
Proof. split; apply selects_spec; lra. Qed.

(** ** Left-side rate of a self-reaction. *)
Definition selfX : prx := PX 0 0 0 (fun _ => None) (fun _ => None) (fun _ => None) (fun _ _ => None) 1 1 (fun _ => 1) 1 (fun _ => 1).
Lemma selfX_left : prodLoss selfX tmOne 0 = 2 /\ prodLeft selfX tmOne 0 * tmOne 0 = 1.
Proof.
  split.
  - unfold prodLoss. rewrite ungrouped_flux by (split; reflexivity). unfold tmOne. cbn. lra.
  - unfold prodLeft, tmOne. cbn. lra.
Qed.
