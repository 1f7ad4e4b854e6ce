(** Derivatives of the heat equation. *)
From Verif Require Import HeatModel.
From Coq Require Import FunctionalExtensionality.
Open Scope R_scope.

Lemma pd_comp g i conc j d : derivable_pt_lim g (conc i) d -> is_partial (fun c => g (c i)) conc j (ind (i =? j)%nat * d).
Proof.
  intros H. unfold is_partial, setc, ind. destruct (Nat.eqb_spec i j) as [->|E].
  - rewrite Rmult_1_l. exact H.
  - rewrite Rmult_0_l. apply derivable_pt_lim_const.
Qed.
Lemma pd_inv f conc j d : f conc <> 0 -> is_partial f conc j d -> is_partial (fun c => / f c) conc j (- d / (f conc * f conc)).
Proof.
  intros H0 H. unfold is_partial in *.
  assert (E : f (setc conc j (conc j)) = f conc) by (rewrite setc_same; reflexivity).
  pose proof (derivable_pt_lim_div (fun _ => 1) (fun t => f (setc conc j t)) (conc j) 0 d (derivable_pt_lim_const 1 _) H) as D.
  cbv beta in D. rewrite E in D. specialize (D H0).
  replace (fun t => / f (setc conc j t)) with ((fun _ => 1) / (fun t => f (setc conc j t)))%F.
  - replace (- d / (f conc * f conc)) with ((0 * f conc - d * 1) / (f conc)²) by (unfold Rsqr; field; auto). exact D.
  - unfold div_fct. extensionality t. unfold Rdiv. apply Rmult_1_l.
Qed.
(** [is_partial] of a function of one variable at component 0. *)
Definition one (x : R) : nat -> R := fun _ => x.
Lemma der_of_pd (g : R -> R) x d : is_partial (fun c => g (c 0%nat)) (one x) 0 d -> derivable_pt_lim g x d.
Proof. intros H. exact H. Qed.

Ltac pdauto := cbv beta;
  lazymatch goal with
  | |- is_partial (fun c => c ?i) _ _ _ => apply pd_var
  | |- is_partial (fun c => @?f c + @?g c) _ _ _ => apply (@pd_plus _ _ f g); pdauto
  | |- is_partial (fun c => @?f c - @?g c) _ _ _ => apply (@pd_minus _ _ f g); pdauto
  | |- is_partial (fun c => - @?f c) _ _ _ => apply (@pd_opp _ _ f); pdauto
  | |- is_partial (fun c => _) _ _ _ => first [apply pd_const | lazymatch goal with
     | |- is_partial (fun c => @?f c * @?g c) _ _ _ => apply (@pd_mult _ _ f g); pdauto
     | |- is_partial (fun c => @?f c / @?g c) _ _ _ => first [apply (@pd_div _ _ f) | apply (@pd_mult _ _ f (fun c => / g c))]; pdauto
     | |- is_partial (fun c => / @?f c) _ _ _ => apply (@pd_inv f); [|pdauto]
     | |- _ => idtac end]
  end.

Ltac pows := repeat match goal with |- context[Z.pow_pos ?a ?b] => let v := eval compute in (Z.pow_pos a b) in change (Z.pow_pos a b) with v end; unfold Q2R; cbn [QArith_base.Qnum QArith_base.Qden].
Lemma der_hbeta x : derivable_pt_lim hbeta x (dBeta x).
Proof. apply der_of_pd. unfold hbeta. eapply pd_eq; [pdauto|]. unfold one, dBeta, ind. cbn [Nat.eqb]. pows. field. Qed.
Lemma der_dBeta x : derivable_pt_lim dBeta x (ddBeta x).
Proof. apply der_of_pd. unfold dBeta. eapply pd_eq; [pdauto|]. unfold one, ddBeta, ind. cbn [Nat.eqb]. pows. field. Qed.
Lemma der_bulkFlux x : derivable_pt_lim bulkFlux x (dBulk x).
Proof. apply der_of_pd. unfold bulkFlux. eapply pd_eq; [pdauto|]. unfold one, dBulk, ind. cbn [Nat.eqb]. pows. field. Qed.
Lemma density_pos : 0 < density. Proof. unfold density. lra. Qed.
Lemma der_hgamma x : capacity x <> 0 -> derivable_pt_lim hgamma x (dGamma x).
Proof.
  intros H. pose proof density_pos. apply der_of_pd. unfold hgamma.
  eapply pd_eq; [unfold capacity; pdauto|].
  - cbv beta. unfold one. fold (capacity x). apply Rmult_integral_contrapositive. split; lra.
  - unfold one. cbv beta. unfold dGamma, ind. cbn [Nat.eqb].
    change (-4.01e-6 * x * x + 3.61e-2 * x + 119.0) with (capacity x).
    pows. field. split; [exact H|lra].
Qed.
Section HEAT.
Variables (p : hp) (t : nat -> R).
Notation T0 := (t 0%nat).
Hypothesis (Hc : capacity T0 <> 0) (Hb : hbeta T0 <> 0).
Lemma pd_hbeta j : is_partial (fun c => hbeta (c 0%nat)) t j (ind (0 =? j)%nat * dBeta T0).
Proof using. apply pd_comp. apply der_hbeta. Qed.
Lemma pd_dBeta j : is_partial (fun c => dBeta (c 0%nat)) t j (ind (0 =? j)%nat * ddBeta T0).
Proof using. apply pd_comp. apply der_dBeta. Qed.
Lemma pd_bulk j : is_partial (fun c => bulkFlux (c 0%nat)) t j (ind (0 =? j)%nat * dBulk T0).
Proof using. apply pd_comp. apply der_bulkFlux. Qed.
Lemma pd_hgamma j : is_partial (fun c => hgamma (c 0%nat)) t j (ind (0 =? j)%nat * dGamma T0).
Proof using Hc. apply pd_comp. apply der_hgamma. exact Hc. Qed.

Ltac heat := cbv beta;
  lazymatch goal with
  | |- is_partial (fun c => hbeta (c 0%nat)) _ _ _ => apply pd_hbeta
  | |- is_partial (fun c => dBeta (c 0%nat)) _ _ _ => apply pd_dBeta
  | |- is_partial (fun c => bulkFlux (c 0%nat)) _ _ _ => apply pd_bulk
  | |- is_partial (fun c => hgamma (c 0%nat)) _ _ _ => apply pd_hgamma; assumption
  | |- is_partial (fun c => c ?i) _ _ _ => apply pd_var
  | |- is_partial (fun c => @?f c + @?g c) _ _ _ => apply (@pd_plus _ _ f g); heat
  | |- is_partial (fun c => @?f c - @?g c) _ _ _ => apply (@pd_minus _ _ f g); heat
  | |- is_partial (fun c => - @?f c) _ _ _ => apply (@pd_opp _ _ f); heat
  | |- is_partial (fun c => _) _ _ _ => first [apply pd_const | lazymatch goal with
     | |- is_partial (fun c => @?f c * @?g c) _ _ _ => apply (@pd_mult _ _ f g); heat
     | |- is_partial (fun c => @?f c / @?g c) _ _ _ => first [apply (@pd_div _ _ f) | apply (@pd_mult _ _ f (fun c => / g c))]; heat
     | |- is_partial (fun c => / @?f c) _ _ _ => apply (@pd_inv f); [|heat]
     | |- _ => idtac end]
  end.

(** The exact derivative of the part along the depth, for a vanishing dAlpha. *)
Definition alongD (k : nat) : R :=
  let b := hbeta T0 in let g := hgamma T0 in let db := dBeta T0 in
  let dg := dGamma T0 in let ddb := ddBeta T0 in let q := bulkFlux T0 in let dq := dBulk T0 in
  let a := alpha p in let l := hhl p in let r := hhr p in let h := heat p in
  match where_ p, k with
  | Interior, 0%nat =>
     -2 * a * b * g / (l * r) + a * (ddb * g + dg * db) * (t 2%nat - t 1%nat) * (t 2%nat - t 1%nat) / ((l + r) * (l + r)) +
     2 * a * (db * g + b * dg) * (t 1%nat + (l / r) * t 2%nat - (1 + l / r) * t 0%nat) / ((l + r) * l)
  | Interior, 1%nat => 2 * a * b * g / (l * (l + r)) + 2 * a * db * g * (t 1%nat - t 2%nat) / ((l + r) * (l + r))
  | Interior, 2%nat => 2 * a * b * g / (r * (l + r)) + 2 * a * db * g * (t 2%nat - t 1%nat) / ((l + r) * (l + r))
  | Surface, 0%nat => 2 * h * dg / l - 2 * a * b * g / (l * r) + 2 * a * (db * g + dg * b) * (t 2%nat - t 0%nat) / (l * r) +
     h * h * (g * ddb + dg * db) / (a * b * b) - 2 * h * h * g * db * db / (a * b * b * b)
  | Surface, 2%nat => 2 * a * b * g / (l * r)
  | BulkPortion por, 0%nat => let w := 1 + (r * por) / l in
     -2 * a * b * g * (1 - por) / (l * (l + r)) + 2 * a * (db * g + b * dg) * (1 - por) * (t 1%nat - t 0%nat) / (l * (l + r)) +
     2 * a * db * g * w * w * (t 0%nat - t 1%nat) / ((l + r) * (l + r)) +
     a * (ddb * g + db * dg) * w * w * (t 1%nat - t 0%nat) * (t 1%nat - t 0%nat) / ((l + r) * (l + r))
  | BulkPortion por, 1%nat => let w := 1 + (r * por) / l in
     2 * a * b * g * (1 - por) / (l * (l + r)) - 2 * a * db * g * w * w * (t 0%nat - t 1%nat) / ((l + r) * (l + r))
  | BulkFlux, 0%nat => -2 * q * dg / r - 2 * dq * g / r - 2 * a * b * g / (l * r) + 2 * a * (db * g + dg * b) * (t 1%nat - t 0%nat) / (l * r) +
     q * q * (g * ddb + dg * db) / (a * b * b) - 2 * q * q * g * db * db / (a * b * b * b) + 2 * q * dq * g * db / (a * b * b)
  | BulkFlux, 1%nat => 2 * a * b * g / (l * r)
  | _, _ => 0
  end.
Hypothesis (Ha : alpha p <> 0) (Hl : hhl p <> 0) (Hr : hhr p <> 0) (Hlr : hhl p + hhr p <> 0) (Hda : dAlpha p = 0).
Lemma along_partial k : is_partial (along p) t k (alongD k).
Proof using Hc Hb Ha Hl Hr Hlr Hda.
  assert (Habb : alpha p * hbeta T0 * hbeta T0 <> 0) by (apply Rmult_integral_contrapositive_currified; [apply Rmult_integral_contrapositive_currified|]; assumption).
  unfold alongD. eapply pd_fun_ext with (f := along p); [reflexivity|].
  unfold along. rewrite Hda. cbv zeta. destruct (where_ p) as [| |por|].
  - eapply pd_eq; [heat; exact Habb|].
    cbv beta; unfold ind. destruct k as [|[|[|k]]]; cbn [Nat.eqb]; field; auto.
  - eapply pd_eq; [heat|]. cbv beta; unfold ind. destruct k as [|[|[|k]]]; cbn [Nat.eqb]; field; auto.
  - eapply pd_eq; [heat|]. cbv beta; unfold ind. destruct k as [|[|[|k]]]; cbn [Nat.eqb]; field; auto.
  - eapply pd_eq; [heat; exact Habb|].
    cbv beta; unfold ind. destruct k as [|[|[|k]]]; cbn [Nat.eqb]; field; auto.
Qed.
(** The part in the other directions. *)
Definition extraD (k : nat) : R :=
  match k with
  | 0%nat => Rsum (seq 1 (hdim p - 1)) (fun d => alpha p * (dBeta T0 * hgamma T0 + hbeta T0 * dGamma T0) * hs p d * (t (2 * d + 1)%nat + t (2 * d + 2)%nat - 2 * T0))
             - Rsum (seq 1 (hdim p - 1)) (fun d => 2 * alpha p * hbeta T0 * hgamma T0 * hs p d)
  | _ => if (Nat.ltb 2 k && Nat.ltb k (2 * hdim p + 1))%bool then alpha p * hbeta T0 * hgamma T0 * hs p (Nat.div (k - 1) 2) else 0
  end.
Lemma extra_partial k : is_partial (extra p) t k (extraD k).
Proof using Hc.
  eapply pd_eq.
  - unfold extra. apply pd_Rsum. intros d Hd.
    assert (E : is_partial (fun c => alpha p * hbeta (c 0%nat) * hgamma (c 0%nat) * hs p d * (c (2 * d + 1)%nat + c (2 * d + 2)%nat - 2 * c 0%nat)) t k
      (ind (0 =? k)%nat * (alpha p * (dBeta T0 * hgamma T0 + hbeta T0 * dGamma T0) * hs p d * (t (2 * d + 1)%nat + t (2 * d + 2)%nat - 2 * T0) - 2 * alpha p * hbeta T0 * hgamma T0 * hs p d) +
       (ind (2 * d + 1 =? k)%nat + ind (2 * d + 2 =? k)%nat) * (alpha p * hbeta T0 * hgamma T0 * hs p d))).
    { eapply pd_eq; [heat|]. cbv beta. ring. }
    exact E.
  - destruct k as [|k].
    + unfold extraD. rewrite <- Rsum_minus. apply Rsum_ext. intros d Hd. apply in_seq in Hd.
      replace (2 * d + 1 =? 0)%nat with false by (symmetry; apply Nat.eqb_neq; lia).
      replace (2 * d + 2 =? 0)%nat with false by (symmetry; apply Nat.eqb_neq; lia). unfold ind. cbn [Nat.eqb]. ring.
    + unfold extraD. unfold ind at 1. cbn [Nat.eqb].
      destruct (Nat.ltb_spec 2 (S k)); cbn [andb].
      * destruct (Nat.ltb_spec (S k) (2 * hdim p + 1)).
        -- set (d0 := Nat.div (S k - 1) 2).
           assert (Hd0 : (2 * d0 + 1 = S k \/ 2 * d0 + 2 = S k)%nat).
           { unfold d0. pose proof (Nat.div_mod (S k - 1) 2 ltac:(lia)). pose proof (Nat.mod_upper_bound (S k - 1) 2 ltac:(lia)). lia. }
           rewrite (@Rsum_single _ _ _ d0).
           ++ destruct Hd0 as [E|E]; rewrite <- E.
              ** rewrite Nat.eqb_refl. replace (2 * d0 + 2 =? 2 * d0 + 1)%nat with false by (symmetry; apply Nat.eqb_neq; lia). unfold ind. ring.
              ** rewrite Nat.eqb_refl. replace (2 * d0 + 1 =? 2 * d0 + 2)%nat with false by (symmetry; apply Nat.eqb_neq; lia). unfold ind. ring.
           ++ apply seq_NoDup.
           ++ apply in_seq. lia.
           ++ intros d _ Hne. 
              replace (2 * d + 1 =? S k)%nat with false by (symmetry; apply Nat.eqb_neq; lia).
              replace (2 * d + 2 =? S k)%nat with false by (symmetry; apply Nat.eqb_neq; lia). unfold ind. ring.
        -- rewrite Rsum_zero; [reflexivity|]. intros d Hd. apply in_seq in Hd.
           replace (2 * d + 1 =? S k)%nat with false by (symmetry; apply Nat.eqb_neq; lia).
           replace (2 * d + 2 =? S k)%nat with false by (symmetry; apply Nat.eqb_neq; lia). unfold ind. ring.
      * rewrite Rsum_zero; [reflexivity|]. intros d Hd. apply in_seq in Hd.
        replace (2 * d + 1 =? S k)%nat with false by (symmetry; apply Nat.eqb_neq; lia).
        replace (2 * d + 2 =? S k)%nat with false by (symmetry; apply Nat.eqb_neq; lia). unfold ind. ring.
Qed.
Lemma rate_partial k : is_partial (tempRate p) t k (alongD k + extraD k).
Proof using Hc Hb Ha Hl Hr Hlr Hda. unfold tempRate. apply pd_plus; [apply along_partial|apply extra_partial]. Qed.
End HEAT.
