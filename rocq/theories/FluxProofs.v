From Verif Require Export FluxModel Partial.
Open Scope R_scope.

Lemma acc_app l1 l2 d : acc (l1 ++ l2) d = acc l1 d + acc l2 d.
Proof. apply Rsum_app. Qed.
Lemma acc_nil d : acc [] d = 0.
Proof. reflexivity. Qed.
Lemma acc_cons i x l d : acc ((i, x) :: l) d = ind (i =? d)%nat * x + acc l d.
Proof. unfold acc, ind. simpl. destruct (i =? d)%nat; lra. Qed.
Lemma acc_gadd o x d : acc (gadd o x) d = ind (oeqb o d) * x.
Proof. unfold acc, ind, gadd. destruct o as [i|]; simpl; [destruct (i =? d)%nat|]; lra. Qed.
Lemma acc_flat_map A (f : A -> contribs) l d :
  acc (flat_map f l) d = Rsum l (fun a => acc (f a) d).
Proof. unfold acc. apply Rsum_flat_map. Qed.
Lemma acc_guard o l d : acc (guard o l) d = ind (valid o) * acc l d.
Proof. unfold ind. destruct o; cbn [guard valid]; [lra|]. rewrite acc_nil. lra. Qed.

Lemma jacc_app l1 l2 r c : jacc (l1 ++ l2) r c = jacc l1 r c + jacc l2 r c.
Proof. apply Rsum_app. Qed.
Lemma jacc_nil r c : jacc [] r c = 0.
Proof. reflexivity. Qed.
Lemma jacc_cons o o' x l r c :
  jacc ((o, o', x) :: l) r c = ind (oeqb o r) * ind (oeqb o' c) * x + jacc l r c.
Proof. unfold jacc, ind. simpl. destruct (oeqb o r), (oeqb o' c); simpl; lra. Qed.
Lemma jacc_flat_map A (f : A -> jcontribs) l r c :
  jacc (flat_map f l) r c = Rsum l (fun a => jacc (f a) r c).
Proof. unfold jacc. apply Rsum_flat_map. Qed.
Lemma jacc_guard o l r c : jacc (guard o l) r c = ind (valid o) * jacc l r c.
Proof. unfold ind. destruct o; cbn [guard valid]; [lra|]. rewrite jacc_nil. lra. Qed.
Lemma jacc_when b l r c : jacc (when b l) r c = ind b * jacc l r c.
Proof. unfold ind. destruct b; cbn [when]; [lra|]. rewrite jacc_nil. lra. Qed.

Lemma ind_valid o d : ind (valid o) * ind (oeqb o d) = ind (oeqb o d).
Proof. unfold ind. destruct o; cbn [valid oeqb]; lra. Qed.

Lemma ind_valid_sq o d z : ind (valid o) * (ind (oeqb o d) * z) = ind (oeqb o d) * z.
Proof. rewrite <- Rmult_assoc, ind_valid. reflexivity. Qed.
Lemma jacc_guard_col o row v r c : jacc (guard o [(row, o, v)]) r c = ind (oeqb row r) * ind (oeqb o c) * v.
Proof. rewrite jacc_guard, jacc_cons, jacc_nil. destruct o; cbn [valid oeqb]; unfold ind; lra. Qed.
Lemma jacc_guard_row o col v r c : jacc (guard o [(o, col, v)]) r c = ind (oeqb o r) * ind (oeqb col c) * v.
Proof. rewrite jacc_guard, jacc_cons, jacc_nil. destruct o; cbn [valid oeqb]; unfold ind; lra. Qed.

Lemma pd_cval conc j o : is_partial (fun c => cval c o) conc j (ind (oeqb o j)).
Proof.
  destruct o as [i|]; cbn [cval oeqb].
  - apply pd_var.
  - apply pd_const.
Qed.

Section PROD.
Variable x : prx.
Variable conc : nat -> R.
Variable j : nat.
Notation ax := (xaxes x).

(** Derivative of the flux value with respect to unknown [j]. *)
Definition dFlux (s k : nat) : R :=
  rate x * (ind (ra x =? j)%nat * dA0 x conc s k + ind (rb x =? j)%nat * dB0 x conc s k
   + Rsum ax (fun i => ind (oeqb (ma x i) j) * dA1 x conc i s k
                       + ind (oeqb (mb x i) j) * dB1 x conc i s k)).

Lemma fluxSum_pd s k : is_partial (fun c => fluxSum x c s k) conc j (dFlux s k).
Proof.
  unfold fluxSum, cR1, cR2, cmR1, cmR2.
  eapply pd_eq.
  - apply pd_scal_r. apply pd_plus.
    + apply pd_mult; [apply pd_scal; apply pd_var|apply pd_var].
    + apply pd_Rsum. intros i _. apply pd_plus; [apply pd_plus|].
      * apply pd_mult; [apply pd_scal; apply pd_cval|apply pd_var].
      * apply pd_mult; [apply pd_scal; apply pd_var|apply pd_cval].
      * apply pd_Rsum. intros i' _. apply pd_mult; [apply pd_scal; apply pd_cval|apply pd_cval].
  - unfold dFlux. rewrite Rmult_comm. f_equal.
    unfold dA0, dB0, dA1, dB1, cR1, cR2, cmR1, cmR2.
    set (da := ind (ra x =? j)%nat). set (db := ind (rb x =? j)%nat).
    set (ea := fun i => ind (oeqb (ma x i) j)). set (eb := fun i => ind (oeqb (mb x i) j)).
    set (u := conc (ra x)). set (v := conc (rb x)).
    set (U := fun i => cval conc (ma x i)). set (V := fun i => cval conc (mb x i)).
    transitivity (cf x (Co 0 0 s k) * da * v + cf x (Co 0 0 s k) * u * db
       + (Rsum ax (fun i => cf x (Co (S i) 0 s k) * ea i * v)
       + db * Rsum ax (fun i => cf x (Co (S i) 0 s k) * U i)
       + da * Rsum ax (fun i => cf x (Co 0 (S i) s k) * V i)
       + Rsum ax (fun i => cf x (Co 0 (S i) s k) * u * eb i)
       + Rsum ax (fun i => ea i * Rsum ax (fun i' => cf x (Co (S i) (S i') s k) * V i'))
       + Rsum ax (fun i' => eb i' * Rsum ax (fun i => cf x (Co (S i) (S i') s k) * U i)))).
    + f_equal. rewrite <- !Rsum_scal.
      replace (Rsum ax (fun i' => eb i' * Rsum ax (fun i => cf x (Co (S i) (S i') s k) * U i)))
        with (Rsum ax (fun i => Rsum ax (fun i' => cf x (Co (S i) (S i') s k) * U i * eb i'))).
      2:{ rewrite Rsum_swap. apply Rsum_ext; intros i' _. rewrite <- Rsum_scal.
          apply Rsum_ext; intros i _. ring. }
      rewrite <- !Rsum_plus. apply Rsum_ext. intros i _.
      rewrite <- !Rsum_scal.
      transitivity (cf x (Co (S i) 0 s k) * ea i * v + db * (cf x (Co (S i) 0 s k) * U i)
         + da * (cf x (Co 0 (S i) s k) * V i) + cf x (Co 0 (S i) s k) * u * eb i
         + (Rsum ax (fun i' => ea i * (cf x (Co (S i) (S i') s k) * V i'))
            + Rsum ax (fun i' => cf x (Co (S i) (S i') s k) * U i * eb i'))); [|ring].
      rewrite <- Rsum_plus. f_equal.
      * unfold ea, eb, U, V. ring.
      * apply Rsum_ext. intros i' _. unfold ea, eb, U, V. ring.
    + rewrite Rsum_plus.
      replace (Rsum ax (fun i => ind (oeqb (ma x i) j) * (cf x (Co (S i) 0 s k) * v
          + Rsum ax (fun i' => cf x (Co (S i) (S i') s k) * cval conc (mb x i')))))
        with (Rsum ax (fun i => cf x (Co (S i) 0 s k) * ea i * v
            + ea i * Rsum ax (fun i' => cf x (Co (S i) (S i') s k) * V i'))).
      2:{ apply Rsum_ext; intros i _. unfold ea, V. ring. }
      replace (Rsum ax (fun i => ind (oeqb (mb x i) j) * (cf x (Co 0 (S i) s k) * u
          + Rsum ax (fun i' => cf x (Co (S i') (S i) s k) * cval conc (ma x i')))))
        with (Rsum ax (fun i => cf x (Co 0 (S i) s k) * u * eb i
            + eb i * Rsum ax (fun i' => cf x (Co (S i') (S i) s k) * U i'))).
      2:{ apply Rsum_ext; intros i _. unfold eb, U. ring. }
      rewrite !Rsum_plus. unfold U, V. ring.
Qed.

Lemma jacc_momentRow row w w' s k r : w = rate x * w' ->
  jacc (momentRow x conc row w s k) r j = ind (oeqb row r) * w' * dFlux s (S k).
Proof.
  intros ->. unfold momentRow. rewrite jacc_guard, jacc_app, !jacc_cons, jacc_nil, jacc_flat_map.
  rewrite (Rsum_ext ax _ (fun i => ind (oeqb row r) * (rate x * w') *
     (ind (oeqb (ma x i) j) * dA1 x conc i s (S k) + ind (oeqb (mb x i) j) * dB1 x conc i s (S k)))).
  - rewrite Rsum_scal. unfold dFlux. cbn [oeqb].
    destruct row; cbn [valid oeqb]; [change (ind true) with 1|change (ind false) with 0]; ring.
  - intros i _. rewrite jacc_app, !jacc_guard_col. ring.
Qed.

(** Weight of row [r] in the zeroth-moment rows. *)
Definition zw (r : nat) : R :=
  - (ind (ra x =? r)%nat / va x) - ind (rb x =? r)%nat / vb x
  + Rsum two (fun p => ind (oeqb (pid x p) r) / vp x p).

Lemma jacc_zeroRows col t r :
  jacc (zeroRows x col t) r j = ind (oeqb col j) * (rate x * t) * zw r.
Proof.
  unfold zeroRows, zw. rewrite jacc_app, !jacc_cons, jacc_nil, jacc_flat_map. cbn [oeqb].
  rewrite (Rsum_ext two _ (fun p => ind (oeqb col j) * (rate x * t) * (ind (oeqb (pid x p) r) / vp x p))).
  - rewrite Rsum_scal. unfold Rdiv. ring.
  - intros p _. rewrite jacc_guard_row. unfold Rdiv. ring.
Qed.

Lemma zeroRows_all r :
  jacc (zeroRows x (Some (ra x)) (dA0 x conc 0 0) ++ zeroRows x (Some (rb x)) (dB0 x conc 0 0)
    ++ flat_map (fun i =>
       guard (ma x i) (zeroRows x (ma x i) (dA1 x conc i 0 0))
       ++ guard (mb x i) (zeroRows x (mb x i) (dB1 x conc i 0 0))) ax) r j = zw r * dFlux 0 0.
Proof.
  rewrite !jacc_app, jacc_flat_map, !jacc_zeroRows.
  rewrite (Rsum_ext ax _ (fun i => zw r * rate x *
     (ind (oeqb (ma x i) j) * dA1 x conc i 0 0 + ind (oeqb (mb x i) j) * dB1 x conc i 0 0))).
  - rewrite Rsum_scal. unfold dFlux. cbn [oeqb]. ring.
  - intros i _. rewrite jacc_app, !jacc_guard, !jacc_zeroRows, !Rmult_assoc, !ind_valid_sq. ring.
Qed.

(** The moment part of row [r]: what the first-moment accumulations add to it
    for a flux value [F s k]. *)
Definition mw (F : nat -> nat -> R) (r : nat) : R :=
  Rsum ax (fun k =>
    - (ind (oeqb (ma x k) r) * (F 0%nat (S k) / va x)) - ind (oeqb (mb x k) r) * (F 1%nat (S k) / vb x)
    + Rsum two (fun p => ind (valid (pid x p)) * (ind (oeqb (mp x p k) r) * (F (p + 2)%nat (S k) / vp x p)))).

Lemma jacc_prodPartials r : jacc (prodPartials x conc) r j = zw r * dFlux 0 0 + mw dFlux r.
Proof.
  unfold prodPartials. rewrite !app_assoc. rewrite <- (app_assoc (zeroRows _ _ _)).
  rewrite <- 1!app_assoc. rewrite jacc_app, zeroRows_all, jacc_app, !jacc_flat_map. f_equal.
  unfold mw. rewrite Rsum_plus, (Rsum_swap ax two). f_equal.
  - apply Rsum_ext. intros k _. rewrite jacc_app.
    rewrite (jacc_momentRow (ma x k) _ (- / va x)) by (unfold Rdiv; ring).
    rewrite (jacc_momentRow (mb x k) _ (- / vb x)) by (unfold Rdiv; ring).
    unfold Rdiv. ring.
  - apply Rsum_ext. intros p _. rewrite jacc_guard, jacc_flat_map, <- Rsum_scal.
    apply Rsum_ext. intros k _.
    rewrite (jacc_momentRow (mp x p k) _ (/ vp x p)) by (unfold Rdiv; ring).
    unfold Rdiv. ring.
Qed.
End PROD.

(** Products are stored compactly: a reaction with a second product has a first. *)
Definition compactProducts (x : prx) : Prop := pid x 0 = None -> pid x 1 = None.

Lemma acc_prodFlux x conc r : compactProducts x ->
  acc (prodFlux x conc) r = zw x r * fluxSum x conc 0 0 + mw x (fluxSum x conc) r.
Proof.
  intros Hc. unfold prodFlux. rewrite !acc_app, !acc_cons, acc_nil, !acc_flat_map.
  unfold zw, mw. rewrite <- Rplus_assoc. f_equal.
  - rewrite (Rsum_ext two _ (fun p => ind (oeqb (pid x p) r) / vp x p * fluxSum x conc 0 0)).
    + rewrite Rsum_scal_r. unfold Rdiv. ring.
    + intros p Hp. rewrite acc_gadd. unfold two in Hp. apply in_seq in Hp.
      destruct p as [|[|p]]; [| |lia]; cbn [prodCounter].
      * unfold Rdiv; ring.
      * destruct (pid x 0) eqn:E0; cbn [valid]; [unfold Rdiv; ring|].
        rewrite (Hc E0). cbn. unfold Rdiv. ring.
  - apply Rsum_ext. intros k _. rewrite !acc_app, !acc_gadd, acc_flat_map.
    rewrite (Rsum_ext two _ (fun p => ind (valid (pid x p)) * (ind (oeqb (mp x p k) r) *
       (fluxSum x conc (p + 2) (S k) / vp x p)))).
    + ring.
    + intros p _. rewrite acc_guard, acc_gadd. reflexivity.
Qed.

Theorem prod_jacobian x conc r j : compactProducts x ->
  is_partial (fun c => acc (prodFlux x c) r) conc j (jacc (prodPartials x conc) r j).
Proof.
  intros Hc. eapply pd_fun_ext; [intros c; symmetry; apply acc_prodFlux; exact Hc|].
  rewrite jacc_prodPartials. apply pd_plus; [apply pd_scal, fluxSum_pd|].
  unfold mw. apply pd_Rsum. intros k _. apply pd_plus; [apply pd_minus|].
  - apply pd_opp, pd_scal, pd_div, fluxSum_pd.
  - apply pd_scal, pd_div, fluxSum_pd.
  - apply pd_Rsum. intros p _. apply pd_scal, pd_scal, pd_div, fluxSum_pd.
Qed.

(** ** Dissociation *)
Section DISS.
Variable y : drx.
Variable conc : nat -> R.
Notation ax := (yaxes y).
Definition ddFlux j s k : R :=
  drate y * (ind (rp y =? j)%nat * dcf y (Co 0 0 s k)
             + Rsum ax (fun i => ind (oeqb (mr y i) j) * dcf y (Co (S i) 0 s k))).

Lemma dfluxSum_pd j s k : is_partial (fun c => dfluxSum y c s k) conc j (ddFlux j s k).
Proof.
  unfold dfluxSum, cR, cmR. eapply pd_eq.
  - apply pd_scal_r, pd_plus; [apply pd_scal, pd_var|].
    apply pd_Rsum. intros i _. apply pd_scal, pd_cval.
  - unfold ddFlux. rewrite (Rsum_ext ax (fun i => dcf y (Co (S i) 0 s k) * _)
     (fun i => ind (oeqb (mr y i) j) * dcf y (Co (S i) 0 s k))) by (intros; ring). ring.
Qed.

Lemma jacc_dRow row w w' s k r j : w = drate y * w' ->
  jacc (dRow y row w s k) r j = ind (oeqb row r) * w' * ddFlux j s k.
Proof.
  intros ->. unfold dRow, ddFlux. rewrite jacc_cons, jacc_flat_map. cbn [oeqb].
  rewrite (Rsum_ext ax _ (fun i => ind (oeqb row r) * (drate y * w') *
      (ind (oeqb (mr y i) j) * dcf y (Co (S i) 0 s k)))).
  - rewrite Rsum_scal. ring.
  - intros i _. rewrite jacc_guard_col. ring.
Qed.

Definition dw (F : nat -> nat -> R) (r : nat) : R :=
  - (ind (rp y =? r)%nat * (F 0%nat 0%nat / vr y)) + ind (dpid y 0 =? r)%nat * (F 0%nat 0%nat / dvp y 0)
  + ind (dpid y 1 =? r)%nat * (F 0%nat 0%nat / dvp y 1)
  + Rsum ax (fun k => - (ind (oeqb (mr y k) r) * (F 0%nat (S k) / vr y))
      + ind (oeqb (dmp y 0 k) r) * (F 1%nat (S k) / dvp y 0)
      + ind (oeqb (dmp y 1 k) r) * (F 2%nat (S k) / dvp y 1)).

Lemma acc_dissFlux r : acc (dissFlux y conc) r = dw (dfluxSum y conc) r.
Proof.
  unfold dissFlux, dw. rewrite acc_app, !acc_cons, acc_nil, acc_flat_map.
  f_equal; [unfold Rdiv; ring|]. apply Rsum_ext. intros k _.
  rewrite !acc_app, !acc_gadd. ring.
Qed.

Lemma jacc_dissPartials r j : jacc (dissPartials y) r j = dw (ddFlux j) r.
Proof.
  unfold dissPartials, dw. rewrite !jacc_app, jacc_flat_map.
  rewrite (jacc_dRow (Some (rp y)) _ (- / vr y)) by (unfold Rdiv; ring).
  rewrite (jacc_dRow (Some (dpid y 0)) _ (/ dvp y 0)) by (unfold Rdiv; ring).
  rewrite (jacc_dRow (Some (dpid y 1)) _ (/ dvp y 1)) by (unfold Rdiv; ring).
  cbn [oeqb]. rewrite <- !Rplus_assoc. f_equal; [unfold Rdiv; ring|].
  apply Rsum_ext. intros k _. rewrite !jacc_app, !jacc_guard.
  rewrite (jacc_dRow (mr y k) _ (- / vr y)) by (unfold Rdiv; ring).
  rewrite (jacc_dRow (dmp y 0 k) _ (/ dvp y 0)) by (unfold Rdiv; ring).
  rewrite (jacc_dRow (dmp y 1 k) _ (/ dvp y 1)) by (unfold Rdiv; ring).
  rewrite !Rmult_assoc, !ind_valid_sq. unfold Rdiv. ring.
Qed.
End DISS.

Theorem diss_jacobian y conc r j :
  is_partial (fun c => acc (dissFlux y c) r) conc j (jacc (dissPartials y) r j).
Proof.
  eapply pd_fun_ext; [intros c; symmetry; apply acc_dissFlux|].
  rewrite jacc_dissPartials. unfold dw. apply pd_plus; [apply pd_plus; [apply pd_plus|]|].
  - apply pd_opp, pd_scal, pd_div, dfluxSum_pd.
  - apply pd_scal, pd_div, dfluxSum_pd.
  - apply pd_scal, pd_div, dfluxSum_pd.
  - apply pd_Rsum. intros k _. apply pd_plus; [apply pd_plus|].
    + apply pd_opp, pd_scal, pd_div, dfluxSum_pd.
    + apply pd_scal, pd_div, dfluxSum_pd.
    + apply pd_scal, pd_div, dfluxSum_pd.
Qed.
