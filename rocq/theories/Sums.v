(** Generic finite sums over lists, with values in [R]. Library file: no model
    of the code here. *)
From Coq Require Export Reals List ZArith Lia Lra.
From Coq Require FinFun.
Export ListNotations.
Open Scope R_scope.

Set Implicit Arguments.

Section RSUM.
Variable A : Type.

Fixpoint Rsum (l : list A) (f : A -> R) : R :=
  match l with
  | [] => 0
  | x :: t => f x + Rsum t f
  end.

Lemma Rsum_app l1 l2 f : Rsum (l1 ++ l2) f = Rsum l1 f + Rsum l2 f.
Proof. induction l1 as [|x t IH]; simpl; [lra | rewrite IH; lra]. Qed.

Lemma Rsum_ext l f g : (forall x, In x l -> f x = g x) -> Rsum l f = Rsum l g.
Proof.
  induction l as [|x t IH]; simpl; intros H; [reflexivity|].
  rewrite (H x) by auto. rewrite IH; auto.
Qed.

Lemma Rsum_plus l f g : Rsum l (fun x => f x + g x) = Rsum l f + Rsum l g.
Proof. induction l as [|x t IH]; simpl; [lra | rewrite IH; lra]. Qed.

Lemma Rsum_minus l f g : Rsum l (fun x => f x - g x) = Rsum l f - Rsum l g.
Proof. induction l as [|x t IH]; simpl; [lra | rewrite IH; lra]. Qed.

Lemma Rsum_scal l f c : Rsum l (fun x => c * f x) = c * Rsum l f.
Proof. induction l as [|x t IH]; simpl; [lra | rewrite IH; lra]. Qed.

Lemma Rsum_scal_r l f c : Rsum l (fun x => f x * c) = Rsum l f * c.
Proof. induction l as [|x t IH]; simpl; [lra | rewrite IH; lra]. Qed.

Lemma Rsum_div l f c : Rsum l (fun x => f x / c) = Rsum l f / c.
Proof. unfold Rdiv. apply Rsum_scal_r. Qed.

Lemma Rsum_opp l f : Rsum l (fun x => - f x) = - Rsum l f.
Proof. induction l as [|x t IH]; simpl; [lra | rewrite IH; lra]. Qed.

Lemma Rsum_0 l : Rsum l (fun _ => 0) = 0.
Proof. induction l as [|x t IH]; simpl; lra. Qed.

Lemma Rsum_zero l f : (forall x, In x l -> f x = 0) -> Rsum l f = 0.
Proof. intros H. rewrite (@Rsum_ext l f (fun _ => 0)); [apply Rsum_0 | exact H]. Qed.

Lemma Rsum_const l c : Rsum l (fun _ => c) = INR (length l) * c.
Proof.
  induction l as [|x t IH]; [simpl; lra|].
  cbn [Rsum length]. rewrite IH, S_INR. lra.
Qed.

Lemma Rsum_nonneg l f : (forall x, In x l -> 0 <= f x) -> 0 <= Rsum l f.
Proof.
  induction l as [|x t IH]; simpl; intros H; [lra|].
  specialize (IH (fun y Hy => H y (or_intror Hy))). specialize (H x (or_introl eq_refl)). lra.
Qed.

Lemma Rsum_le l f g : (forall x, In x l -> f x <= g x) -> Rsum l f <= Rsum l g.
Proof.
  induction l as [|x t IH]; simpl; intros H; [lra|].
  specialize (IH (fun y Hy => H y (or_intror Hy))). specialize (H x (or_introl eq_refl)). lra.
Qed.

Lemma Rsum_pos l f :
  (forall x, In x l -> 0 <= f x) -> (exists x, In x l /\ 0 < f x) -> 0 < Rsum l f.
Proof.
  induction l as [|x t IH]; simpl; intros H [y [Hy Hp]]; [contradiction|].
  assert (Ht : 0 <= Rsum t f) by (apply Rsum_nonneg; auto).
  destruct Hy as [->|Hy].
  - lra.
  - assert (0 < Rsum t f) by (apply IH; eauto).
    specialize (H x (or_introl eq_refl)). lra.
Qed.

Lemma Rsum_filter l (p : A -> bool) f :
  Rsum (filter p l) f = Rsum l (fun x => if p x then f x else 0).
Proof. induction l as [|x t IH]; simpl; [lra|]. destruct (p x); simpl; rewrite IH; lra. Qed.

Lemma Rsum_single l f (x0 : A) :
  NoDup l -> In x0 l -> (forall x, In x l -> x <> x0 -> f x = 0) -> Rsum l f = f x0.
Proof.
  induction l as [|x t IH]; simpl; intros Hnd Hin Hz; [contradiction|].
  inversion Hnd as [|? ? Hni Hnd']; subst.
  destruct Hin as [->|Hin].
  - rewrite Rsum_zero; [lra|]. intros y Hy. apply Hz; [auto|]. intros ->; contradiction.
  - rewrite (Hz x); [|auto|intros ->; contradiction].
    rewrite IH; auto. lra.
Qed.

End RSUM.

Lemma Rsum_map A B (g : A -> B) l f : Rsum (map g l) f = Rsum l (fun x => f (g x)).
Proof. induction l as [|x t IH]; simpl; [lra | rewrite IH; lra]. Qed.

Lemma Rsum_flat_map A B (g : A -> list B) l f :
  Rsum (flat_map g l) f = Rsum l (fun x => Rsum (g x) f).
Proof. induction l as [|x t IH]; simpl; [lra | rewrite Rsum_app, IH; lra]. Qed.

Lemma Rsum_swap A B (l1 : list A) (l2 : list B) (f : A -> B -> R) :
  Rsum l1 (fun x => Rsum l2 (f x)) = Rsum l2 (fun y => Rsum l1 (fun x => f x y)).
Proof.
  induction l1 as [|x t IH]; simpl.
  - symmetry; apply Rsum_0.
  - rewrite IH. rewrite <- Rsum_plus. reflexivity.
Qed.

Lemma Rsum_prod A B (l1 : list A) (l2 : list B) f g :
  Rsum l1 f * Rsum l2 g = Rsum l1 (fun x => Rsum l2 (fun y => f x * g y)).
Proof.
  induction l1 as [|x t IH]; simpl; [lra|].
  rewrite Rmult_plus_distr_r, IH, Rsum_scal. reflexivity.
Qed.

Lemma Rsum_seq_S f n : Rsum (seq 0 (S n)) f = Rsum (seq 0 n) f + f n.
Proof. rewrite seq_S, Rsum_app. simpl. lra. Qed.

(** * Products over lists *)
Fixpoint Rprod A (l : list A) (f : A -> R) : R :=
  match l with
  | [] => 1
  | x :: t => f x * Rprod t f
  end.

Lemma Rprod_ext A (l : list A) f g :
  (forall x, In x l -> f x = g x) -> Rprod l f = Rprod l g.
Proof.
  induction l as [|x t IH]; simpl; intros H; [reflexivity|].
  rewrite (H x) by auto. rewrite IH; auto.
Qed.

Lemma Rprod_app A (l1 l2 : list A) f : Rprod (l1 ++ l2) f = Rprod l1 f * Rprod l2 f.
Proof. induction l1 as [|x t IH]; simpl; [lra | rewrite IH; lra]. Qed.

Lemma Rprod_neq_0 A (l : list A) f :
  (forall x, In x l -> f x <> 0) -> Rprod l f <> 0.
Proof.
  induction l as [|x t IH]; simpl; intros H; [lra|].
  apply Rmult_integral_contrapositive_currified; auto.
Qed.

Lemma Rprod_pos A (l : list A) f :
  (forall x, In x l -> 0 < f x) -> 0 < Rprod l f.
Proof.
  induction l as [|x t IH]; simpl; intros H; [lra|].
  apply Rmult_lt_0_compat; auto.
Qed.

(** * Integer intervals as lists *)
Definition zlist (a b : Z) : list Z :=
  map (fun k => (a + Z.of_nat k)%Z) (seq 0 (Z.to_nat (b - a + 1))).

Lemma zlist_In a b x : In x (zlist a b) <-> (a <= x <= b)%Z.
Proof.
  unfold zlist. rewrite in_map_iff. split.
  - intros [k [Hk Hin]]. apply in_seq in Hin. lia.
  - intros H. exists (Z.to_nat (x - a)). split; [lia|]. apply in_seq. lia.
Qed.

Lemma zlist_empty a b : (b < a)%Z -> zlist a b = [].
Proof. intros H. unfold zlist. replace (Z.to_nat (b - a + 1)) with 0%nat by lia. reflexivity. Qed.

Lemma zlist_snoc a b : (a <= b + 1)%Z -> zlist a (b + 1) = zlist a b ++ [(b + 1)%Z].
Proof.
  intros H. unfold zlist.
  replace (Z.to_nat (b + 1 - a + 1)) with (S (Z.to_nat (b - a + 1))) by lia.
  rewrite seq_S, map_app. simpl. f_equal. f_equal. lia.
Qed.

Lemma zlist_cons a b : (a <= b)%Z -> zlist a b = a :: zlist (a + 1) b.
Proof.
  intros H. unfold zlist.
  replace (Z.to_nat (b - a + 1)) with (S (Z.to_nat (b - (a + 1) + 1))) by lia.
  cbn [seq map]. f_equal; [lia|].
  rewrite <- seq_shift, map_map. apply map_ext. intros k. lia.
Qed.

Lemma zlist_NoDup a b : NoDup (zlist a b).
Proof.
  unfold zlist. apply FinFun.Injective_map_NoDup; [|apply seq_NoDup].
  intros x y H. lia.
Qed.

Lemma zlist_length a b : length (zlist a b) = Z.to_nat (b - a + 1).
Proof. unfold zlist. rewrite map_length, seq_length. reflexivity. Qed.

(** Induction principle on the upper bound of an interval. *)
Lemma interval_ind (a : Z) (P : Z -> Prop) :
  P (a - 1)%Z -> (forall b, (a - 1 <= b)%Z -> P b -> P (b + 1)%Z) ->
  forall b, (a - 1 <= b)%Z -> P b.
Proof.
  intros H0 HS b Hb.
  replace b with ((a - 1) + (b - (a - 1)))%Z by lia.
  generalize (b - (a - 1))%Z (Zle_minus_le_0 _ _ Hb).
  intros d Hd. revert d Hd.
  apply natlike_ind.
  - rewrite Z.add_0_r. exact H0.
  - intros d Hd IH. unfold Z.succ. rewrite Z.add_assoc. apply HS; [lia|exact IH].
Qed.

(** Restricting a sum over an interval to another interval is summing over the
    intersection. *)
Lemma Rsum_clip a b c d (f : Z -> R) :
  Rsum (zlist a b) (fun x => if ((c <=? x) && (x <=? d))%Z%bool then f x else 0)
  = Rsum (zlist (Z.max a c) (Z.min b d)) f.
Proof.
  destruct (Z_lt_le_dec b a) as [Hlt|Hle].
  - rewrite (zlist_empty Hlt). rewrite zlist_empty by lia. reflexivity.
  - assert (Hb : (a - 1 <= b)%Z) by lia. clear Hle. revert b Hb.
    apply interval_ind.
    + rewrite !zlist_empty by lia. reflexivity.
    + intros b Hb IH. rewrite zlist_snoc by lia. rewrite Rsum_app, IH. simpl.
      destruct (Z.leb_spec c (b + 1)); destruct (Z.leb_spec (b + 1) d); simpl.
      * replace (Z.min (b + 1) d) with (b + 1)%Z by lia.
        replace (Z.min b d) with b by lia.
        rewrite zlist_snoc by lia. rewrite Rsum_app. simpl. lra.
      * replace (Z.min (b + 1) d) with (Z.min b d) by lia. lra.
      * rewrite (@zlist_empty (Z.max a c) (Z.min b d)) by lia.
        rewrite zlist_empty by lia. simpl. lra.
      * rewrite (@zlist_empty (Z.max a c) (Z.min b d)) by lia.
        rewrite zlist_empty by lia. simpl. lra.
Qed.

(** A sum of an indicator of one point. *)
Lemma Rsum_point a b (x0 : Z) (f : Z -> R) :
  Rsum (zlist a b) (fun x => if (x =? x0)%Z then f x else 0)
  = if ((a <=? x0) && (x0 <=? b))%Z%bool then f x0 else 0.
Proof.
  destruct (Z.leb_spec a x0); destruct (Z.leb_spec x0 b); simpl.
  - rewrite (@Rsum_single _ _ _ x0).
    + rewrite Z.eqb_refl. reflexivity.
    + apply zlist_NoDup.
    + apply zlist_In. lia.
    + intros x _ Hx. destruct (Z.eqb_spec x x0); [contradiction|reflexivity].
  - apply Rsum_zero. intros x Hx. apply zlist_In in Hx.
    destruct (Z.eqb_spec x x0); [lia|reflexivity].
  - apply Rsum_zero. intros x Hx. apply zlist_In in Hx.
    destruct (Z.eqb_spec x x0); [lia|reflexivity].
  - apply Rsum_zero. intros x Hx. apply zlist_In in Hx.
    destruct (Z.eqb_spec x x0); [lia|reflexivity].
Qed.

Lemma Rsum_ones (a b : Z) :
  Rsum (zlist a b) (fun _ => 1) = IZR (Z.max 0 (b - a + 1)).
Proof.
  rewrite Rsum_const, zlist_length, Rmult_1_r, INR_IZR_INZ. f_equal. lia.
Qed.

(** Evaluate the integers under [IZR] (for concrete examples). *)
Ltac zev := repeat match goal with
  |- context [IZR ?z] => let z' := eval compute in z in progress change (IZR z) with (IZR z') end.
