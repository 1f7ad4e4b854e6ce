(** The dissociation (and re-solution) coefficients are the intended balanced sums. *)
From Verif Require Export CoefCorrect.
Open Scope R_scope.

(** Balanced sum on one axis: parent size c, dummy size d, product sizes p1, p2,
    with c + d = p1 + p2. *)
Definition daxsum (r : dreact) (i : nat) (w : Z -> Z -> Z -> Z -> R) : R :=
  msum (dcl r i) (dcl2 r i) (dp1 r i) (dp2 r i) w.

(** Participant slots: 0 parent, 1/2 products. *)
Definition dslotw (r : dreact) (s k i : nat) (c d p1 p2 : Z) : R :=
  match s with
  | 0%nat => wt k i (dcl r i) c
  | 1%nat => wt k i (dp1 r i) p1
  | _ => wt k i (dp2 r i) p2
  end.
Definition dslotd (r : dreact) (s k : nat) : R :=
  match k with
  | O => 1
  | S i => match s with 0%nat => ddisp r i | 1%nat => dd1 r i | _ => dd2 r i end
  end.
Definition dspecCoef (r : dreact) (a s k : nat) : R :=
  Rprod (daxes r) (fun i => daxsum r i (fun c d p1 p2 =>
     wt a i (dcl r i) c * dslotw r s k i c d p1 p2)) / dslotd r s k.

Record goodDR (r : dreact) : Prop := {
  h_nz : forall i, (i < dna r)%nat -> daxsum r i (fun _ _ _ _ => 1) <> 0;
  h_d : forall i, ddisp r i <> 0;
  h_d1 : forall i, dd1 r i <> 0;
  h_d2 : forall i, dd2 r i <> 0
}.

Section D.
Variable r : dreact.
Notation n := (dna r).
Notation F := (dissCoefs r).

Lemma daxes_In i : In i (daxes r) <-> (i < n)%nat.
Proof. unfold daxes. rewrite in_seq. lia. Qed.

Lemma dloop1_keys i : keys (dloop1 r i) = [Co (S i) 0 0 0].
Proof. reflexivity. Qed.
Lemma dloop2_keys k : keys (dloop2 r k) = [Co 0 0 0 (S k); Co 0 0 1 (S k); Co 0 0 2 (S k)].
Proof. reflexivity. Qed.
Lemma dloop3k_keys i k : keys (dloop3k r i k) = [Co (S i) 0 0 (S k); Co (S i) 0 1 (S k); Co (S i) 0 2 (S k)].
Proof. unfold dloop3k. destruct (k =? i)%nat; reflexivity. Qed.
Lemma dloop3_In i x : In x (keys (dloop3 r i)) <->
  exists k, (k < n)%nat /\ (x = Co (S i) 0 0 (S k) \/ x = Co (S i) 0 1 (S k) \/ x = Co (S i) 0 2 (S k)).
Proof.
  unfold dloop3. rewrite in_keys_flat_map. split; intros (k & Hk & H); exists k.
  - rewrite daxes_In in Hk. rewrite dloop3k_keys in H. cbn in H. split; [exact Hk|]. intuition congruence.
  - rewrite daxes_In, dloop3k_keys. cbn. split; [exact Hk|]. intuition congruence.
Qed.

Lemma dcoef_NoDup : NoDup (keys (dcoefProgram r)).
Proof.
  assert (Hnd : NoDup (daxes r)) by apply seq_NoDup.
  unfold dcoefProgram. cbn [keys map fst]. fold (keys (flat_map (dloop1 r) (daxes r) ++ flat_map (dloop2 r) (daxes r) ++ flat_map (dloop3 r) (daxes r))).
  constructor.
  - rewrite !keys_app, !in_app_iff, !in_keys_flat_map. intros [(i & _ & H)|[(i & _ & H)|(i & _ & H)]].
    + rewrite dloop1_keys in H. cbn in H. intuition congruence.
    + rewrite dloop2_keys in H. cbn in H. intuition congruence.
    + rewrite dloop3_In in H. clash.
  - rewrite !keys_app. apply NoDup_app_i; [|apply NoDup_app_i|].
    + apply NoDup_keys_flat_map; [exact Hnd| |].
      * intros i _. rewrite dloop1_keys. repeat constructor. cbn. tauto.
      * intros i j x _ _ Hne. rewrite !dloop1_keys. cbn. intuition congruence.
    + apply NoDup_keys_flat_map; [exact Hnd| |].
      * intros i _. rewrite dloop2_keys. repeat constructor; cbn; intuition congruence.
      * intros i j x _ _ Hne. rewrite !dloop2_keys. cbn. intuition congruence.
    + apply NoDup_keys_flat_map; [exact Hnd| |].
      * intros i _. unfold dloop3. apply NoDup_keys_flat_map; [exact Hnd| |].
        -- intros k _. rewrite dloop3k_keys. repeat constructor; cbn; intuition congruence.
        -- intros k k' x _ _ Hne. rewrite !dloop3k_keys. cbn. intuition congruence.
      * intros i j x _ _ Hne H H'. rewrite dloop3_In in H, H'. clash.
    + intros x H H'. rewrite in_keys_flat_map in H, H'. destruct H as (i & _ & H), H' as (j & _ & H').
      rewrite dloop2_keys in H. rewrite dloop3_In in H'. cbn in H. clash.
    + intros x H H'. rewrite in_app_iff in H'. rewrite in_keys_flat_map in H.
      destruct H as (i & _ & H). rewrite dloop1_keys in H. cbn in H.
      rewrite !in_keys_flat_map in H'. destruct H' as [(j & _ & H')|(j & _ & H')].
      * rewrite dloop2_keys in H'. cbn in H'. clash.
      * rewrite dloop3_In in H'. clash.
Qed.

Lemma dval0 : F (Co 0 0 0 0) = dnOverlap r.
Proof.
  unfold dissCoefs. change (dcoefProgram r) with ([] ++ dcoefProgram r). unfold dcoefProgram.
  apply (exec_at cidx_dec [] (Co 0 0 0 0) (fun _ => dnOverlap r)).
  pose proof dcoef_NoDup as H. unfold dcoefProgram in H. cbn [keys map fst] in H.
  inversion H; subst. assumption.
Qed.

Lemma dval1 i : (i < n)%nat -> F (Co (S i) 0 0 0) =
  dfactor r i * computeFirstOrderSum (dcl r i) (dcl2 r i) (dp2 r i) (dp1 r i).
Proof.
  intros Hi. edestruct (fun pre e => @At_exec _ cidx_dec (dcoefProgram r) pre (Co (S i) 0 0 0) e (fun _ => 0) dcoef_NoDup) as [E _].
  - unfold dcoefProgram. apply At_cons, At_app_l. unfold daxes. apply At_flat_map with (i := i); [exact Hi|].
    apply At_here.
  - exact E.
Qed.

(** State seen inside the second loop. *)
Lemma dval2 k pre x e : (k < n)%nat -> At (dloop2 r k) pre x e ->
  exists st, F x = e st /\ (forall i, (i < n)%nat -> st (Co (S i) 0 0 0) = F (Co (S i) 0 0 0)).
Proof.
  intros Hk HA.
  assert (HB : At (dcoefProgram r) ((Co 0 0 0 0, fun _ => dnOverlap r) ::
     flat_map (dloop1 r) (daxes r) ++ flat_map (dloop2 r) (seq 0 k) ++ pre) x e).
  { unfold dcoefProgram. apply At_cons, At_app_r, At_app_l. unfold daxes at 1. apply At_flat_map; assumption. }
  destruct (At_exec cidx_dec (fun _ => 0) dcoef_NoDup HB) as [E [H1 _]].
  eexists. split; [exact E|]. intros i Hi. apply H1. cbn [keys map fst]. right.
  fold (keys (flat_map (dloop1 r) (daxes r) ++ flat_map (dloop2 r) (seq 0 k) ++ pre)).
  rewrite keys_app, in_app_iff, in_keys_flat_map. left. exists i. rewrite daxes_In, dloop1_keys.
  split; [exact Hi|left; reflexivity].
Qed.

Lemma dval3 i k pre x e : (i < n)%nat -> (k < n)%nat -> At (dloop3k r i k) pre x e ->
  exists st, F x = e st /\ (forall i, (i < n)%nat -> st (Co (S i) 0 0 0) = F (Co (S i) 0 0 0)) /\
    (forall i s, (i < n)%nat -> (s < 3)%nat -> st (Co 0 0 s (S i)) = F (Co 0 0 s (S i))).
Proof.
  intros Hi Hk HA.
  assert (HB : At (dcoefProgram r) ((Co 0 0 0 0, fun _ => dnOverlap r) ::
     flat_map (dloop1 r) (daxes r) ++ flat_map (dloop2 r) (daxes r)
     ++ flat_map (dloop3 r) (seq 0 i) ++ (flat_map (dloop3k r i) (seq 0 k) ++ pre)) x e).
  { unfold dcoefProgram. apply At_cons, At_app_r, At_app_r. unfold daxes at 1.
    apply At_flat_map with (i := i); [exact Hi|]. unfold dloop3, daxes. apply At_flat_map; assumption. }
  destruct (At_exec cidx_dec (fun _ => 0) dcoef_NoDup HB) as [E [H1 _]].
  eexists. split; [exact E|]. split.
  - intros i' Hi'. apply H1. cbn [keys map fst]. right.
    fold (keys (flat_map (dloop1 r) (daxes r) ++ flat_map (dloop2 r) (daxes r)
     ++ flat_map (dloop3 r) (seq 0 i) ++ (flat_map (dloop3k r i) (seq 0 k) ++ pre))).
    rewrite keys_app, in_app_iff, in_keys_flat_map. left. exists i'. rewrite daxes_In, dloop1_keys.
    split; [exact Hi'|left; reflexivity].
  - intros i' s Hi' Hs. apply H1. cbn [keys map fst]. right.
    fold (keys (flat_map (dloop1 r) (daxes r) ++ flat_map (dloop2 r) (daxes r)
     ++ flat_map (dloop3 r) (seq 0 i) ++ (flat_map (dloop3k r i) (seq 0 k) ++ pre))).
    rewrite keys_app, in_app_iff, keys_app, in_app_iff, !in_keys_flat_map. right. left.
    exists i'. rewrite daxes_In, dloop2_keys.
    split; [exact Hi'|]. cbn. destruct s as [|[|[|]]]; [auto|auto|auto|lia].
Qed.

Lemma dv_00 k : (k < n)%nat ->
  F (Co 0 0 0 (S k)) = F (Co (S k) 0 0 0) / ddisp r k /\
  F (Co 0 0 1 (S k)) = dfactor r k * computeFirstOrderSum (dp1 r k) (dp2 r k) (dcl r k) (dcl2 r k) / dd1 r k /\
  F (Co 0 0 2 (S k)) = dfactor r k * computeFirstOrderSum (dp2 r k) (dp1 r k) (dcl r k) (dcl2 r k) / dd2 r k.
Proof.
  intros Hk. split; [|split].
  - edestruct (fun pre e => @dval2 k pre (Co 0 0 0 (S k)) e Hk) as [st [E H]]; [apply At_here|].
    rewrite E, H by exact Hk. reflexivity.
  - edestruct (fun pre e => @dval2 k pre (Co 0 0 1 (S k)) e Hk) as [st [E H]]; [apply At_cons, At_here|]. exact E.
  - edestruct (fun pre e => @dval2 k pre (Co 0 0 2 (S k)) e Hk) as [st [E H]]; [do 2 apply At_cons; apply At_here|]. exact E.
Qed.

Lemma dv_diag i : (i < n)%nat ->
  F (Co (S i) 0 0 (S i)) = dfactor r i * computeSecondOrderSum (dcl r i) (dcl2 r i) (dp2 r i) (dp1 r i) / ddisp r i /\
  F (Co (S i) 0 1 (S i)) = dfactor r i * computeSecondOrderOffsetSum (dcl r i) (dcl2 r i) (dp1 r i) (dp2 r i) / dd1 r i /\
  F (Co (S i) 0 2 (S i)) = dfactor r i * computeSecondOrderOffsetSum (dcl r i) (dcl2 r i) (dp2 r i) (dp1 r i) / dd2 r i.
Proof.
  intros Hi. split; [|split].
  - edestruct (fun pre e => @dval3 i i pre (Co (S i) 0 0 (S i)) e Hi Hi) as [st [E H]].
    { unfold dloop3k. rewrite Nat.eqb_refl. apply At_here. } exact E.
  - edestruct (fun pre e => @dval3 i i pre (Co (S i) 0 1 (S i)) e Hi Hi) as [st [E H]].
    { unfold dloop3k. rewrite Nat.eqb_refl. apply At_cons, At_here. } exact E.
  - edestruct (fun pre e => @dval3 i i pre (Co (S i) 0 2 (S i)) e Hi Hi) as [st [E H]].
    { unfold dloop3k. rewrite Nat.eqb_refl. do 2 apply At_cons. apply At_here. } exact E.
Qed.

Lemma dv_off i k : (i < n)%nat -> (k < n)%nat -> k <> i ->
  F (Co (S i) 0 0 (S k)) = F (Co (S i) 0 0 0) * F (Co (S k) 0 0 0) / (dnOverlap r * ddisp r k) /\
  F (Co (S i) 0 1 (S k)) = F (Co (S i) 0 0 0) * F (Co 0 0 1 (S k)) / dnOverlap r /\
  F (Co (S i) 0 2 (S k)) = F (Co (S i) 0 0 0) * F (Co 0 0 2 (S k)) / dnOverlap r.
Proof.
  intros Hi Hk Hne. split; [|split].
  - edestruct (fun pre e => @dval3 i k pre (Co (S i) 0 0 (S k)) e Hi Hk) as [st [E [H1 H2]]].
    { unfold dloop3k. rewrite (proj2 (Nat.eqb_neq k i) Hne). apply At_here. }
    rewrite E, !H1 by assumption. reflexivity.
  - edestruct (fun pre e => @dval3 i k pre (Co (S i) 0 1 (S k)) e Hi Hk) as [st [E [H1 H2]]].
    { unfold dloop3k. rewrite (proj2 (Nat.eqb_neq k i) Hne). apply At_cons, At_here. }
    rewrite E, H1, H2 by (assumption || lia). reflexivity.
  - edestruct (fun pre e => @dval3 i k pre (Co (S i) 0 2 (S k)) e Hi Hk) as [st [E [H1 H2]]].
    { unfold dloop3k. rewrite (proj2 (Nat.eqb_neq k i) Hne). do 2 apply At_cons. apply At_here. }
    rewrite E, H1, H2 by (assumption || lia). reflexivity.
Qed.

Hypothesis G : goodDR r.

Lemma dwidth_count i : dwidth r i = daxsum r i (fun _ _ _ _ => 1).
Proof. unfold dwidth, daxsum. rewrite overlapWidth_msum. apply msum_swap_pairs. Qed.
Lemma dwidth_nz i : (i < n)%nat -> dwidth r i <> 0.
Proof. intros Hi. rewrite dwidth_count. apply G. exact Hi. Qed.
Lemma dnO_nz : dnOverlap r <> 0.
Proof. apply Rprod_neq_0. intros i Hi. apply dwidth_nz, daxes_In, Hi. Qed.

Definition DE (i : nat) (w : Z -> Z -> Z -> Z -> R) : R := daxsum r i w / dwidth r i.
Lemma DE_ext i w w' : (forall x y z t, w x y z t = w' x y z t) -> DE i w = DE i w'.
Proof. intros H. unfold DE, daxsum. f_equal. apply msum_ext. intros; apply H. Qed.
Lemma DE_1 i w : (i < n)%nat -> (forall x y z t, w x y z t = 1) -> DE i w = 1.
Proof.
  intros Hi H. rewrite (DE_ext i w (fun _ _ _ _ => 1)) by exact H. unfold DE.
  rewrite <- dwidth_count. field. apply dwidth_nz, Hi.
Qed.
Lemma dspec_E a s k : dspecCoef r a s k =
  dnOverlap r * Rprod (daxes r) (fun i => DE i (fun x y p m =>
     wt a i (dcl r i) x * dslotw r s k i x y p m)) / dslotd r s k.
Proof.
  unfold dspecCoef, dnOverlap. rewrite <- Rprod_mult. f_equal. apply Rprod_ext.
  intros i Hi. unfold DE. field. apply dwidth_nz, daxes_In, Hi.
Qed.
Lemma dfac_E i w S : (i < n)%nat -> S = daxsum r i w -> dfactor r i * S = dnOverlap r * DE i w.
Proof. intros Hi ->. unfold dfactor, DE. field. apply dwidth_nz, Hi. Qed.

Definition VC (i : nat) (x y p m : Z) : R := IZR x - imean (dcl r i).
Definition VP1 (i : nat) (x y p m : Z) : R := IZR p - imean (dp1 r i).
Definition VP2 (i : nat) (x y p m : Z) : R := IZR m - imean (dp2 r i).

Lemma DF_a i : (i < n)%nat -> F (Co (S i) 0 0 0) = dnOverlap r * DE i (VC i).
Proof.
  intros Hi. rewrite dval1 by exact Hi. apply dfac_E; [exact Hi|].
  rewrite computeFirstOrderSum_spec, msum_swap34. reflexivity.
Qed.
Lemma DF_1 i : (i < n)%nat -> F (Co 0 0 1 (S i)) = dnOverlap r * DE i (VP1 i) / dd1 r i.
Proof.
  intros Hi. rewrite (proj1 (proj2 (dv_00 i Hi))). f_equal. apply dfac_E; [exact Hi|].
  rewrite computeFirstOrderSum_spec, msum_swap_pairs. reflexivity.
Qed.
Lemma DF_2 i : (i < n)%nat -> F (Co 0 0 2 (S i)) = dnOverlap r * DE i (VP2 i) / dd2 r i.
Proof.
  intros Hi. rewrite (proj2 (proj2 (dv_00 i Hi))). f_equal. apply dfac_E; [exact Hi|].
  rewrite computeFirstOrderSum_spec, msum_swap12, msum_swap_pairs. reflexivity.
Qed.

Lemma dslotw_1 s k i x y p m : k <> S i -> dslotw r s k i x y p m = 1.
Proof. intros H. unfold dslotw. destruct s as [|[|]]; apply wt_1; exact H. Qed.
Lemma dslotd_nz s k : dslotd r s k <> 0.
Proof. unfold dslotd. destruct k; [lra|]. destruct s as [|[|]]; apply G. Qed.
Lemma daxesND : NoDup (daxes r).
Proof. apply seq_NoDup. Qed.

Ltac dside := intros; apply DE_1; [apply daxes_In; assumption|]; intros;
  rewrite ?wt_1, ?dslotw_1 by congruence; lra.

Ltac setD i w tac :=
  match goal with |- context [DE i ?f] =>
    match f with context [dslotw] => rewrite (DE_ext i f w) by (intros; tac) end end.

Theorem dcoef_correct a s k : (a <= n)%nat -> (k <= n)%nat -> (s < 3)%nat -> (k = 0%nat -> s = 0%nat) ->
  F (Co a 0 s k) = dspecCoef r a s k.
Proof.
  intros Ha Hk Hs Hk0. assert (HO := dnO_nz). assert (HD := dslotd_nz).
  assert (H1 := h_d r G). assert (H2 := h_d1 r G). assert (H3 := h_d2 r G).
  rewrite dspec_E. destruct k as [|k].
  { rewrite (Hk0 eq_refl). destruct a as [|i].
    - rewrite dval0, Rprod_one; [cbn; lra|]. intros i Hi. apply DE_1; [apply daxes_In, Hi|].
      intros. rewrite wt_1, dslotw_1 by congruence. lra.
    - rewrite DF_a by lia. rewrite (@Rprod_pt1 _ i); [|exact daxesND|apply daxes_In; lia|dside].
      cbn [dslotd]. transitivity (dnOverlap r * DE i (VC i) / 1); [lra|]. f_equal. f_equal. apply DE_ext. intros. rewrite wt_S, dslotw_1 by congruence. unfold VC; ring. }
  destruct a as [|i].
  { rewrite (@Rprod_pt1 _ k); [|exact daxesND|apply daxes_In; lia|dside].
    destruct s as [|[|[|s]]]; [| | |lia].
    - rewrite (proj1 (dv_00 k ltac:(lia))), DF_a by lia. cbn [dslotd]. f_equal. f_equal.
      apply DE_ext. intros. rewrite wt_1 by congruence. unfold dslotw, VC. rewrite wt_S. ring.
    - rewrite DF_1 by lia. cbn [dslotd]. f_equal. f_equal.
      apply DE_ext. intros. rewrite wt_1 by congruence. unfold dslotw, VP1. rewrite wt_S. ring.
    - rewrite DF_2 by lia. cbn [dslotd]. f_equal. f_equal.
      apply DE_ext. intros. rewrite wt_1 by congruence. unfold dslotw, VP2. rewrite wt_S. ring. }
  destruct (Nat.eq_dec k i) as [->|Hne].
  - rewrite (@Rprod_pt1 _ i); [|exact daxesND|apply daxes_In; lia|dside].
    destruct (dv_diag i ltac:(lia)) as (E0 & E1 & E2).
    destruct s as [|[|[|s]]]; [| | |lia]; cbn [dslotd]; [rewrite E0|rewrite E1|rewrite E2]; f_equal;
      (apply dfac_E; [lia|]).
    + rewrite computeSecondOrderSum_spec, msum_swap34. apply msum_ext. intros. unfold dslotw. rewrite !wt_S. ring.
    + rewrite computeSecondOrderOffsetSum_spec. apply msum_ext. intros. unfold dslotw. rewrite !wt_S. ring.
    + rewrite computeSecondOrderOffsetSum_spec, msum_swap34. apply msum_ext. intros. unfold dslotw. rewrite !wt_S. ring.
  - rewrite (@Rprod_pt2 _ i k); [|exact daxesND|apply daxes_In; lia|apply daxes_In; lia|congruence|dside].
    destruct (dv_off i k ltac:(lia) ltac:(lia) Hne) as (E0 & E1 & E2).
    setD i (VC i) ltac:(rewrite wt_S, dslotw_1 by congruence; unfold VC; ring).
    destruct s as [|[|[|s]]]; [| | |lia]; cbn [dslotd]; [rewrite E0|rewrite E1|rewrite E2];
      rewrite ?DF_a, ?DF_1, ?DF_2 by lia.
    + setD k (VC k) ltac:(rewrite wt_1 by congruence; unfold dslotw, VC; rewrite wt_S; ring).
      field. split; [apply H1|exact HO].
    + setD k (VP1 k) ltac:(rewrite wt_1 by congruence; unfold dslotw, VP1; rewrite wt_S; ring).
      field. split; [apply H2|exact HO].
    + setD k (VP2 k) ltac:(rewrite wt_1 by congruence; unfold dslotw, VP2; rewrite wt_S; ring).
      field. split; [apply H3|exact HO].
Qed.
End D.
