(** Partial derivatives of functions of a concentration vector. Library. *)
From Verif Require Export Sums.
From Coq Require Import FunctionalExtensionality.
Open Scope R_scope.
Set Implicit Arguments.

Definition setc (conc : nat -> R) (j : nat) (t : R) : nat -> R :=
  fun i => if (i =? j)%nat then t else conc i.

(** [d] is the partial derivative of [f] with respect to component [j] at [conc]. *)
Definition is_partial (f : (nat -> R) -> R) (conc : nat -> R) (j : nat) (d : R) : Prop :=
  derivable_pt_lim (fun t => f (setc conc j t)) (conc j) d.

Definition ind (b : bool) : R := if b then 1 else 0.

Lemma setc_same conc j : setc conc j (conc j) = conc.
Proof.
  extensionality i. unfold setc. destruct (Nat.eqb_spec i j); congruence.
Qed.

Section PD.
Variables (conc : nat -> R) (j : nat).
Notation pd f d := (is_partial f conc j d).

Lemma pd_eq f d d' : pd f d -> d = d' -> pd f d'.
Proof. intros H <-. exact H. Qed.

Lemma pd_fun_ext f g d : (forall c, f c = g c) -> pd f d -> pd g d.
Proof.
  intros E H. unfold is_partial in *.
  replace (fun t => g (setc conc j t)) with (fun t => f (setc conc j t)); [exact H|].
  extensionality t. apply E.
Qed.

Lemma pd_const a : pd (fun _ => a) 0.
Proof. apply derivable_pt_lim_const. Qed.

Lemma pd_var i : pd (fun c => c i) (ind (i =? j)%nat).
Proof.
  unfold is_partial, setc, ind. destruct (i =? j)%nat.
  - apply derivable_pt_lim_id.
  - apply derivable_pt_lim_const.
Qed.

Lemma pd_plus f g a b : pd f a -> pd g b -> pd (fun c => f c + g c) (a + b).
Proof. intros H1 H2. exact (derivable_pt_lim_plus _ _ _ _ _ H1 H2). Qed.

Lemma pd_minus f g a b : pd f a -> pd g b -> pd (fun c => f c - g c) (a - b).
Proof. intros H1 H2. exact (derivable_pt_lim_minus _ _ _ _ _ H1 H2). Qed.

Lemma pd_opp f a : pd f a -> pd (fun c => - f c) (- a).
Proof. intros H1. exact (derivable_pt_lim_opp _ _ _ H1). Qed.

Lemma pd_mult f g a b : pd f a -> pd g b -> pd (fun c => f c * g c) (a * g conc + f conc * b).
Proof.
  intros H1 H2. pose proof (derivable_pt_lim_mult _ _ _ _ _ H1 H2) as H.
  cbv beta in H. rewrite setc_same in H. exact H.
Qed.

Lemma pd_scal f a k : pd f a -> pd (fun c => k * f c) (k * a).
Proof. intros H. eapply pd_eq; [apply pd_mult; [apply pd_const|exact H]|]. lra. Qed.

Lemma pd_scal_r f a k : pd f a -> pd (fun c => f c * k) (a * k).
Proof. intros H. eapply pd_eq; [apply pd_mult; [exact H|apply pd_const]|]. lra. Qed.

Lemma pd_div f a k : pd f a -> pd (fun c => f c / k) (a / k).
Proof. intros H. unfold Rdiv. apply pd_scal_r. exact H. Qed.

Lemma pd_Rsum A (l : list A) (f : A -> (nat -> R) -> R) (d : A -> R) :
  (forall x, In x l -> pd (f x) (d x)) ->
  pd (fun c => Rsum l (fun x => f x c)) (Rsum l d).
Proof.
  induction l as [|x t IH]; intros H; simpl.
  - apply pd_const.
  - apply pd_plus; [apply H; left; reflexivity|]. apply IH. intros y Hy. apply H. right; exact Hy.
Qed.
End PD.

Lemma is_partial_unique f conc j d d' : is_partial f conc j d -> is_partial f conc j d' -> d = d'.
Proof. unfold is_partial. intros. eapply uniqueness_limite; eassumption. Qed.
