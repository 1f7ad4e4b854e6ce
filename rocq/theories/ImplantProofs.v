From Verif Require Export ImplantModel ProfileProofs.
Set Implicit Arguments.
Open Scope R_scope.

(** The amount implanted per unit time along the grid: every grid point of the solver
    (nX = size - 2) from the surface on, times the width of its cell. *)
Definition implanted (v : list R) (sp : nat) (g : list R) : option R :=
  fold_right (fun xi acc => match incident v sp xi, acc with Some a, Some s => Some (a * (nth (xi + 1) g 0 - nth xi g 0) + s) | _, _ => None end)
    (Some 0) (seq sp (length g - 2 - sp)).

Lemma implanted_eq (w : nat -> R) v sp g n : (forall xi, (sp <= xi < sp + n)%nat -> incident v sp xi = Some (w xi)) ->
  fold_right (fun xi acc => match incident v sp xi, acc with Some a, Some s => Some (a * (nth (xi + 1) g 0 - nth xi g 0) + s) | _, _ => None end)
    (Some 0) (seq sp n) = Some (Rsum (seq sp n) (fun xi => w xi * (nth (xi + 1) g 0 - nth xi g 0))).
Proof.
  intros H. assert (A : forall l, (forall xi, In xi l -> (sp <= xi < sp + n)%nat) ->
    fold_right (fun xi acc => match incident v sp xi, acc with Some a, Some s => Some (a * (nth (xi + 1) g 0 - nth xi g 0) + s) | _, _ => None end)
    (Some 0) l = Some (Rsum l (fun xi => w xi * (nth (xi + 1) g 0 - nth xi g 0)))).
  { induction l as [|x l IH]; intros Hl; [reflexivity|]. cbn [fold_right]. rewrite IH by (intros; apply Hl; right; assumption).
    rewrite (H x) by (apply Hl; left; reflexivity). cbn. f_equal. }
  apply A. intros xi Hx. apply in_seq in Hx. exact Hx.
Qed.

Section Vec.
Variable f : nat -> R. Variable g : list R. Variable sp : nat.
Hypothesis Hlen : (sp + 4 <= length g)%nat.
Let vec := 0 :: map f (cells g sp) ++ [0].
Let w (xi : nat) : R := if Nat.eqb xi sp then 0 else if Nat.eqb xi (length g - 3) then 0 else f xi.
Lemma vec_len : length vec = (length g - 2 - sp)%nat.
Proof. unfold vec. cbn [length]. rewrite app_length, map_length. unfold cells. rewrite seq_length. cbn. lia. Qed.
Lemma vec_at xi : (sp <= xi < sp + (length g - 2 - sp))%nat -> incident vec sp xi = Some (w xi).
Proof.
  intros H. unfold incident, vec, w. destruct (Nat.eqb_spec xi sp) as [->|N]; [rewrite Nat.sub_diag; reflexivity|].
  replace (xi - sp)%nat with (S (xi - sp - 1)) by lia. cbn [nth_error].
  destruct (Nat.eqb_spec xi (length g - 3)) as [->|N1].
  - rewrite nth_error_app2; rewrite map_length; unfold cells; rewrite seq_length; [|lia].
    replace (length g - 3 - sp - 1 - (length g - 3 - (sp + 1)))%nat with 0%nat by lia. reflexivity.
  - rewrite nth_error_app1 by (rewrite map_length; unfold cells; rewrite seq_length; lia).
    rewrite nth_error_map. unfold cells. rewrite (@nth_error_nth' _ _ _ 0%nat) by (rewrite seq_length; lia). rewrite seq_nth by lia. cbn.
    do 2 f_equal. lia.
Qed.
Lemma vec_implanted : implanted vec sp g = Some (Rsum (cells g sp) (fun i => f i * width g i)).
Proof.
  unfold implanted. rewrite (@implanted_eq w) by exact vec_at. f_equal. unfold cells.
  replace (length g - 2 - sp)%nat with (1 + (length g - 3 - (sp + 1)) + 1)%nat by lia.
  rewrite !seq_app, !Rsum_app. cbn [seq Rsum]. unfold w at 1 3. rewrite Nat.eqb_refl.
  replace (sp + (1 + (length g - 3 - (sp + 1))))%nat with (length g - 3)%nat by lia. rewrite Nat.eqb_refl.
  destruct (Nat.eqb (length g - 3) sp);
  (rewrite (Rsum_ext _ _ (fun i => f i * width g i)); [ring|]; intros i Hi; apply in_seq in Hi; unfold w;
   destruct (Nat.eqb_spec i sp); [lia|]; destruct (Nat.eqb_spec i (length g - 3)); [lia|]; reflexivity).
Qed.
End Vec.

Lemma upd_spec v j x : (j < length v)%nat -> exists v', upd v j x = Some v' /\ length v' = length v /\
  forall k, nth_error v' k = if Nat.eqb k j then Some x else nth_error v k.
Proof.
  revert j. induction v as [|a v IH]; intros j H; [cbn in H; lia|]. destruct j as [|j].
  - exists (x :: v). split; [reflexivity|split; [reflexivity|]]. intros [|k]; reflexivity.
  - destruct (IH j) as (v' & E & L & N); [cbn in H; lia|]. exists (a :: v'). cbn. rewrite E. split; [reflexivity|]. split; [cbn; lia|].
    intros [|k]; [reflexivity|]. cbn. apply N.
Qed.
Lemma writes_spec f sp is v : (forall i, In i is -> (sp <= i < sp + length v)%nat) -> exists v', writes f sp is v = Some v' /\ length v' = length v /\
  (forall i, In i is -> nth_error v' (i - sp) = Some (f i)) /\
  (forall k, (forall i, In i is -> (i - sp)%nat <> k) -> nth_error v' k = nth_error v k).
Proof.
  revert v. induction is as [|i is IH]; intros v H.
  - exists v. repeat split. intros i [].
  - destruct (@upd_spec v (i - sp) (f i)) as (v1 & E1 & L1 & N1); [specialize (H i (or_introl eq_refl)); lia|].
    destruct (IH v1) as (v2 & E2 & L2 & N2 & N3); [intros j Hj; rewrite L1; apply H; right; exact Hj|].
    exists v2. cbn [writes]. rewrite E1. split; [exact E2|]. split; [lia|]. split.
    + intros j [->|Hj]; [|apply N2; exact Hj]. destruct (in_dec Nat.eq_dec j is) as [I|I]; [apply N2; exact I|].
      rewrite N3; [rewrite N1, Nat.eqb_refl; reflexivity|]. intros k Hk Hc. apply I. replace j with k; [exact Hk|].
      pose proof (H k (or_intror Hk)). pose proof (H j (or_introl eq_refl)). lia.
    + intros k Hk. rewrite N3 by (intros j Hj; apply Hk; right; exact Hj). rewrite N1. destruct (Nat.eqb_spec k (i - sp)) as [->|_]; [|reflexivity].
      exfalso. apply (Hk i); [left; reflexivity|reflexivity].
Qed.
Lemma recompute_init fit amp red nf amp' red' nf' g sp : (sp + 4 <= length g)%nat ->
  recomputeVec fit amp red nf g sp (initVec fit amp' red' nf' g sp) = Some (initVec fit amp red nf g sp).
Proof.
  intros H. set (v := initVec fit amp' red' nf' g sp).
  assert (L : length v = (length g - 2 - sp)%nat) by (apply vec_len; exact H).
  unfold recomputeVec. destruct (@writes_spec (fun i => normalized amp red nf * fit (depth g sp i)) sp (cells g sp) v) as (v' & E & L' & N2 & N3).
  { intros i Hi. unfold cells in Hi. apply in_seq in Hi. lia. }
  rewrite E. f_equal. apply nth_ext with (d := 0) (d' := 0); [rewrite L', L; symmetry; unfold initVec; apply vec_len; exact H|].
  intros k Hk. rewrite L', L in Hk.
  assert (A : nth_error v' k = nth_error (initVec fit amp red nf g sp) k).
  { destruct (Nat.eq_dec k 0) as [->|K0]; [|destruct (Nat.eq_dec k (length g - 3 - sp)) as [->|K1]].
    - rewrite N3; [reflexivity|]. intros i Hi. unfold cells in Hi. apply in_seq in Hi. lia.
    - rewrite N3 by (intros i Hi; unfold cells in Hi; apply in_seq in Hi; lia).
      pose proof (@vec_at (fun i => normalized amp' red' nf' * fit (depth g sp i)) g sp H (length g - 3) ltac:(lia)) as V1.
      pose proof (@vec_at (fun i => normalized amp red nf * fit (depth g sp i)) g sp H (length g - 3) ltac:(lia)) as V2.
      unfold incident in V1, V2. unfold v, initVec. rewrite V1, V2. rewrite Nat.eqb_refl. reflexivity.
    - pose proof (N2 (k + sp)%nat) as N4. replace (k + sp - sp)%nat with k in N4 by lia. rewrite N4 by (unfold cells; apply in_seq; lia).
      pose proof (@vec_at (fun i => normalized amp red nf * fit (depth g sp i)) g sp H (k + sp) ltac:(lia)) as V2.
      unfold incident in V2. replace (k + sp - sp)%nat with k in V2 by lia. unfold initVec. rewrite V2.
      destruct (Nat.eqb_spec (k + sp) sp); [lia|]. destruct (Nat.eqb_spec (k + sp) (length g - 3)); [lia|]. reflexivity. }
  rewrite (@nth_error_nth' _ v' k 0) in A by (rewrite L', L; exact Hk).
  rewrite (@nth_error_nth' _ (initVec fit amp red nf g sp) k 0) in A by (unfold initVec; rewrite vec_len by exact H; exact Hk).
  injection A as A. exact A.
Qed.
Lemma initVec_implanted fit amp red g sp : (sp + 4 <= length g)%nat -> 0 < norm fit g sp ->
  implanted (initVec fit amp red (norm fit g sp) g sp) sp g = Some (amp * red).
Proof.
  intros H N. unfold initVec. rewrite vec_implanted by exact H. f_equal. unfold normalized. destruct (Rlt_dec 0 (norm fit g sp)); [|contradiction].
  rewrite (Rsum_ext _ _ (fun i => amp * red / norm fit g sp * (fit (depth g sp i) * width g i))) by (intros; ring).
  rewrite Rsum_scal. fold (norm fit g sp). field. lra.
Qed.
Definition gincr (g : list R) : Prop := forall i, (S i < length g)%nat -> gr g i < gr g (S i).
Lemma norm_pos fit g sp i : gincr g -> (forall j, In j (cells g sp) -> 0 <= fit (depth g sp j)) -> In i (cells g sp) -> 0 < fit (depth g sp i) ->
  0 < norm fit g sp.
Proof.
  intros G P. unfold norm. assert (A : forall l, (forall j, In j l -> In j (cells g sp)) -> 0 <= Rsum l (fun i => fit (depth g sp i) * width g i) /\
    (In i l -> 0 < fit (depth g sp i) -> 0 < Rsum l (fun i => fit (depth g sp i) * width g i))).
  { induction l as [|j l IH]; intros Hl; [cbn; split; [lra|intros []]|]. cbn [Rsum]. destruct IH as [I1 I2]; [intros; apply Hl; right; assumption|].
    assert (W : 0 < width g j). { specialize (Hl j (or_introl eq_refl)). unfold cells in Hl. apply in_seq in Hl. unfold width. rewrite Nat.add_1_r. specialize (G j). lia || (assert (gr g j < gr g (S j)) by (apply G; lia); lra). }
    pose proof (P j (Hl j (or_introl eq_refl))) as P1. split; [nra|]. intros [->|Hj] Hp; [nra|]. specialize (I2 Hj Hp). nra. }
  intros I Hp. apply (A (cells g sp)); auto.
Qed.
