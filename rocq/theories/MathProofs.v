From Verif Require Export MathModel.

Lemma IZR_gt_dec_case (a b : Z) (A : Type) (x y : A) :
  (if Rgt_dec (IZR a) (IZR b) then x else y) = (if (b <? a)%Z then x else y).
Proof.
  destruct (Rgt_dec (IZR a) (IZR b)) as [H|H]; destruct (Z.ltb_spec b a); auto.
  - apply Rgt_lt, lt_IZR in H. lia.
  - exfalso. apply H. apply IZR_lt. assumption.
Qed.

Lemma firstOrderSum_spec (a b : Z) (mean : R) :
  firstOrderSum (IZR a) (IZR b) mean = Rsum (zlist a b) (fun n => IZR n - mean).
Proof.
  unfold firstOrderSum. rewrite IZR_gt_dec_case.
  destruct (Z.ltb_spec b a) as [H|H].
  - rewrite zlist_empty by lia. reflexivity.
  - assert (Hb : (a - 1 <= b)%Z) by lia. clear H. revert b Hb. apply interval_ind.
    + rewrite zlist_empty by lia. rewrite minus_IZR. simpl. field.
    + intros b Hb IH. rewrite zlist_snoc by lia. rewrite Rsum_app, <- IH. simpl.
      rewrite plus_IZR. field.
Qed.

Lemma secondOrderSum_spec (a b : Z) (mean : R) :
  secondOrderSum (IZR a) (IZR b) mean
  = Rsum (zlist a b) (fun n => (IZR n - mean) * (IZR n - mean)).
Proof.
  unfold secondOrderSum. rewrite IZR_gt_dec_case.
  destruct (Z.ltb_spec b a) as [H|H].
  - rewrite zlist_empty by lia. reflexivity.
  - cbv zeta. assert (Hb : (a - 1 <= b)%Z) by lia. clear H. revert b Hb. apply interval_ind.
    + rewrite zlist_empty by lia. rewrite minus_IZR. simpl. field.
    + intros b Hb IH. rewrite zlist_snoc by lia. rewrite Rsum_app, <- IH. simpl.
      rewrite plus_IZR. field.
Qed.

Lemma secondOrderOffsetSum_spec (a b : Z) (m1 m2 off : R) :
  secondOrderOffsetSum (IZR a) (IZR b) m1 m2 off
  = Rsum (zlist a b) (fun n => (IZR n - m1) * (IZR n + off - m2)).
Proof.
  unfold secondOrderOffsetSum. rewrite IZR_gt_dec_case.
  destruct (Z.ltb_spec b a) as [H|H].
  - rewrite zlist_empty by lia. reflexivity.
  - cbv zeta. assert (Hb : (a - 1 <= b)%Z) by lia. clear H. revert b Hb. apply interval_ind.
    + rewrite zlist_empty by lia. rewrite minus_IZR. simpl. field.
    + intros b Hb IH. rewrite zlist_snoc by lia. rewrite Rsum_app, <- IH. simpl.
      rewrite plus_IZR. field.
Qed.

(** ** Legendre *)

(** Independent specification: the sequence defined by Bonnet's recurrence. *)
Fixpoint bonnet (x : R) (n : nat) : R * R :=
  match n with
  | O => (1, x)
  | S k => let '(p, q) := bonnet x k in
           (q, ((2 * INR (S k) + 1) * x * q - INR (S k) * p) / (INR (S k) + 1))
  end.

Lemma legendreLoop_bonnet x : forall k n p q r,
  bonnet x n = (p, q) ->
  legendreLoop x (S n) k p q r = match k with O => r | S _ => snd (bonnet x (n + k)) end.
Proof.
  induction k as [|k IH]; intros n p q r H; [reflexivity|].
  cbn [legendreLoop].
  assert (HB : bonnet x (S n) =
    (q, ((2 * INR (S n) + 1) * x * q - INR (S n) * p) / (INR (S n) + 1))).
  { cbn [bonnet]. rewrite H. reflexivity. }
  rewrite (IH (S n) _ _ _ HB).
  destruct k as [|k].
  - rewrite Nat.add_1_r, HB. reflexivity.
  - do 2 f_equal. lia.
Qed.

Lemma bonnet_shift x n : fst (bonnet x (S n)) = snd (bonnet x n).
Proof. cbn [bonnet]. destruct (bonnet x n); reflexivity. Qed.

Lemma legendre_bonnet x n : legendrePolynomial x n = fst (bonnet x n).
Proof.
  destruct n as [|[|n]]; [reflexivity|reflexivity|].
  unfold legendrePolynomial.
  rewrite (@legendreLoop_bonnet x (S n) 0 1 x 0 eq_refl).
  rewrite bonnet_shift. reflexivity.
Qed.

Lemma legendre_rec x n :
  (INR n + 2) * legendrePolynomial x (S (S n))
  = (2 * INR n + 3) * x * legendrePolynomial x (S n) - (INR n + 1) * legendrePolynomial x n.
Proof.
  rewrite !legendre_bonnet.
  rewrite (bonnet_shift x (S n)), (bonnet_shift x n).
  cbn [bonnet]. destruct (bonnet x n) as [p q]. cbn [fst snd].
  rewrite S_INR. field. pose proof (pos_INR n). lra.
Qed.

Lemma legendre_ind (P : nat -> Prop) :
  P 0%nat -> P 1%nat -> (forall n, P n -> P (S n) -> P (S (S n))) -> forall n, P n.
Proof.
  intros H0 H1 HS n. assert (P n /\ P (S n)) as [H _]; [|exact H].
  induction n as [|n [IH1 IH2]]; split; auto.
Qed.

Lemma legendre_solve x n :
  legendrePolynomial x (S (S n)) =
  ((2 * INR n + 3) * x * legendrePolynomial x (S n) - (INR n + 1) * legendrePolynomial x n)
  / (INR n + 2).
Proof.
  pose proof (legendre_rec x n) as H. pose proof (pos_INR n).
  rewrite <- H. field. lra.
Qed.

Lemma legendre_at_1 n : legendrePolynomial 1 n = 1.
Proof.
  revert n. apply legendre_ind; [reflexivity|reflexivity|].
  intros n H1 H2. rewrite legendre_solve, H1, H2. pose proof (pos_INR n). field. lra.
Qed.

Lemma legendre_parity x n :
  legendrePolynomial (- x) n = (-1) ^ n * legendrePolynomial x n.
Proof.
  revert n. apply legendre_ind.
  - simpl. lra.
  - simpl. lra.
  - intros n H1 H2. rewrite !legendre_solve, H1, H2. pose proof (pos_INR n).
    cbn [pow]. field. lra.
Qed.

Lemma nthLegendreLoop_spec x cs : forall deg v,
  nthLegendreLoop x cs deg v =
  v + Rsum (seq 0 (length cs)) (fun i => nth i cs 0 * legendrePolynomial x (deg + i)).
Proof.
  induction cs as [|c t IH]; intros deg v; [simpl; lra|].
  cbn [nthLegendreLoop]. rewrite IH. cbn [length seq Rsum nth].
  rewrite <- seq_shift, Rsum_map. rewrite Nat.add_0_r.
  rewrite Rplus_assoc. f_equal. f_equal. apply Rsum_ext.
  intros i _. do 2 f_equal. lia.
Qed.
