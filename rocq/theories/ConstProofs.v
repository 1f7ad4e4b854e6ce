(** Constant rates reproduce the flux of the full network. *)
From Verif Require Export ConstModel FluxProofs.
Open Scope R_scope.

Definition colval (conc : nat -> R) (o : option nat) : R :=
  match o with None => 1 | Some c => conc c end.

Lemma capply_app l1 l2 conc d : capply (l1 ++ l2) conc d = capply l1 conc d + capply l2 conc d.
Proof. apply Rsum_app. Qed.
Lemma capply_nil conc d : capply [] conc d = 0.
Proof. reflexivity. Qed.
Lemma capply_cons o o' v l conc d :
  capply ((o, o', v) :: l) conc d = ind (oeqb o d) * colval conc o' * v + capply l conc d.
Proof. unfold capply, ind, colval. simpl. destruct (oeqb o d), o'; simpl; lra. Qed.
Lemma capply_flat_map A (f : A -> rcontribs) l conc d :
  capply (flat_map f l) conc d = Rsum l (fun a => capply (f a) conc d).
Proof. unfold capply. apply Rsum_flat_map. Qed.
Lemma capply_guard o l conc d : capply (guard o l) conc d = ind (valid o) * capply l conc d.
Proof. unfold ind. destruct o; cbn [guard valid]; [lra|]. rewrite capply_nil. lra. Qed.
Lemma capply_when b l conc d : capply (when b l) conc d = ind b * capply l conc d.
Proof. unfold ind. destruct b; cbn [when]; [lra|]. rewrite capply_nil. lra. Qed.
Lemma valid_col conc o : ind (valid o) * colval conc o = cval conc o.
Proof. unfold ind. destruct o; cbn; lra. Qed.

(** Membership of unknowns: a cluster's moments are in the sub-network when the
    cluster is. *)
Record subOf (inS U : nat -> bool) (x : prx) : Prop := {
  u_ra : U (ra x) = inS (ra x);
  u_rb : U (rb x) = inS (rb x);
  u_pid : forall p d, pid x p = Some d -> U d = inS d;
  u_ma : forall k d, ma x k = Some d -> U d = inS (ra x);
  u_mb : forall k d, mb x k = Some d -> U d = inS (rb x);
  u_mp : forall p k d m, pid x p = Some d -> mp x p k = Some m -> U m = inS d
}.

Section PC.
Variables (inS U : nat -> bool) (x : prx) (conc : nat -> R) (d : nat).
Hypothesis HS : subOf inS U x.
Hypothesis Hd : U d = true.
Notation ax := (xaxes x).

Lemma out_ra : inS (ra x) = false -> ind (ra x =? d)%nat = 0.
Proof.
  intros H. unfold ind. destruct (Nat.eqb_spec (ra x) d) as [<-|]; [|reflexivity].
  rewrite (u_ra _ _ _ HS) in Hd. congruence.
Qed.
Lemma out_rb : inS (rb x) = false -> ind (rb x =? d)%nat = 0.
Proof.
  intros H. unfold ind. destruct (Nat.eqb_spec (rb x) d) as [<-|]; [|reflexivity].
  rewrite (u_rb _ _ _ HS) in Hd. congruence.
Qed.
Lemma out_ma k : inS (ra x) = false -> ind (oeqb (ma x k) d) = 0.
Proof.
  intros H. unfold ind. destruct (ma x k) as [m|] eqn:E; cbn; [|reflexivity].
  destruct (Nat.eqb_spec m d) as [->|]; [|reflexivity]. apply (u_ma _ _ _ HS) in E. congruence.
Qed.
Lemma out_mb k : inS (rb x) = false -> ind (oeqb (mb x k) d) = 0.
Proof.
  intros H. unfold ind. destruct (mb x k) as [m|] eqn:E; cbn; [|reflexivity].
  destruct (Nat.eqb_spec m d) as [->|]; [|reflexivity]. apply (u_mb _ _ _ HS) in E. congruence.
Qed.
Lemma pin_pid p z : ind (valid (pid x p)) * (ind (pin inS x p) * (ind (oeqb (pid x p) d) * z)) = ind (oeqb (pid x p) d) * z.
Proof.
  unfold ind, pin. destruct (pid x p) as [m|] eqn:E; cbn; [|lra].
  destruct (Nat.eqb_spec m d) as [->|]; [|lra]. apply (u_pid _ _ _ HS) in E. rewrite <- E, Hd. lra.
Qed.
Lemma pin_mp p k z : ind (valid (pid x p)) * (ind (pin inS x p) * (ind (oeqb (mp x p k) d) * z))
  = ind (valid (pid x p)) * (ind (oeqb (mp x p k) d) * z).
Proof.
  unfold ind, pin. destruct (pid x p) as [m|] eqn:E; cbn [valid]; [|lra].
  destruct (mp x p k) as [m'|] eqn:E'; cbn [oeqb]; [|lra].
  destruct (Nat.eqb_spec m' d) as [->|]; [|lra].
  pose proof (u_mp _ _ _ HS _ _ _ _ E E'). rewrite <- H, Hd. lra.
Qed.

Lemma fluxSum_A s k : fluxSum x conc s k =
  (conc (ra x) * dA0 x conc s k + Rsum ax (fun i => cval conc (ma x i) * dA1 x conc i s k)) * rate x.
Proof.
  unfold fluxSum, dA0, dA1. f_equal. rewrite Rmult_plus_distr_l, Rplus_assoc. unfold cR1, cmR1. f_equal; [ring|].
  rewrite <- Rsum_scal, <- Rsum_plus. apply Rsum_ext. intros i _. unfold cR1, cmR1.
  rewrite Rmult_plus_distr_l, <- Rsum_scal.
  replace (Rsum ax (fun j => cf x (Co (S i) (S j) s k) * cval conc (ma x i) * cmR2 x conc j))
    with (Rsum ax (fun j => cval conc (ma x i) * (cf x (Co (S i) (S j) s k) * cmR2 x conc j)))
    by (apply Rsum_ext; intros; ring).
  ring.
Qed.

Lemma fluxSum_B s k : fluxSum x conc s k =
  (conc (rb x) * dB0 x conc s k + Rsum ax (fun i => cval conc (mb x i) * dB1 x conc i s k)) * rate x.
Proof.
  unfold fluxSum, dB0, dB1. f_equal. rewrite Rmult_plus_distr_l, Rplus_assoc. unfold cR2, cmR2. f_equal; [unfold cR1; ring|].
  rewrite !Rsum_plus.
  replace (Rsum ax (fun i => Rsum ax (fun j => cf x (Co (S i) (S j) s k) * cmR1 x conc i * cval conc (mb x j))))
    with (Rsum ax (fun j => Rsum ax (fun i => cf x (Co (S i) (S j) s k) * cmR1 x conc i * cval conc (mb x j))))
    by (symmetry; apply Rsum_swap).
  replace (Rsum ax (fun i => cval conc (mb x i) * (cf x (Co 0 (S i) s k) * cR1 x conc
       + Rsum ax (fun j => cf x (Co (S j) (S i) s k) * cmR1 x conc j))))
    with (Rsum ax (fun i => cf x (Co 0 (S i) s k) * cR1 x conc * cval conc (mb x i))
      + Rsum ax (fun j => Rsum ax (fun i => cf x (Co (S i) (S j) s k) * cmR1 x conc i * cval conc (mb x j)))).
  2:{ rewrite <- Rsum_plus. apply Rsum_ext. intros i _. rewrite Rmult_plus_distr_l, <- Rsum_scal.
      f_equal; [ring|]. apply Rsum_ext. intros; ring. }
  replace (Rsum ax (fun i => cf x (Co (S i) 0 s k) * cmR1 x conc i * conc (rb x)))
    with (conc (rb x) * Rsum ax (fun i => cf x (Co (S i) 0 s k) * cmR1 x conc i))
    by (rewrite <- Rsum_scal; apply Rsum_ext; intros; ring).
  ring.
Qed.

(** The common shape of the two one-reactant cases. *)
Definition constGen (c : nat) (m : nat -> option nat) (v : R) (s0 : nat)
    (Z0 : nat -> nat -> R) (I0 : nat -> R) (I1 : nat -> nat -> nat -> R) : rcontribs :=
  [(Some c, Some c, - (Z0 0%nat 0%nat * rate x / v))]
  ++ flat_map (fun p => guard (pid x p) (when (pin inS x p)
       [(pid x p, Some c, Z0 0%nat 0%nat * rate x / vp x p)])) two
  ++ flat_map (fun i => guard (m i)
       ([(Some c, m i, - (I0 i * rate x / v))]
        ++ flat_map (fun p => guard (pid x p) (when (pin inS x p)
             [(pid x p, m i, I0 i * rate x / vp x p)])) two)) ax
  ++ flat_map (fun k =>
       guard (m k)
         ([(m k, Some c, - (Z0 s0 (S k) * rate x / v))]
          ++ flat_map (fun i => guard (m i)
               [(m k, m i, - (I1 i s0 (S k) * rate x / v))]) ax)
       ++ flat_map (fun p => guard (pid x p) (when (pin inS x p) (guard (mp x p k)
            ([(mp x p k, Some c, Z0 (p + 2)%nat (S k) * rate x / vp x p)]
             ++ flat_map (fun i => guard (m i)
               [(mp x p k, m i, I1 i (p + 2)%nat (S k) * rate x / vp x p)]) ax)))) two)
     ax.

Lemma capply_row o c m w (z : R) (g : nat -> R) :
  capply ([(o, Some c, z * w)] ++ flat_map (fun i => guard (m i) [(o, m i, g i * w)]) ax) conc d
  = ind (oeqb o d) * w * (conc c * z + Rsum ax (fun i => cval conc (m i) * g i)).
Proof using.
  clear HS Hd. rewrite capply_app, capply_cons, capply_nil, capply_flat_map. cbn [colval].
  rewrite Rmult_plus_distr_l, <- Rsum_scal. f_equal; [ring|].
  apply Rsum_ext. intros i _. rewrite capply_guard, capply_cons, capply_nil, <- valid_col. ring.
Qed.
Lemma capply_row' o c m w (z : R) (g : nat -> R) l : 
  l = [(o, Some c, z * w)] ++ flat_map (fun i => guard (m i) [(o, m i, g i * w)]) ax ->
  capply l conc d
  = ind (oeqb o d) * w * (conc c * z + Rsum ax (fun i => cval conc (m i) * g i)).
Proof using. intros ->. apply capply_row. Qed.

Lemma sing (o o' : option nat) (a b : R) : a = b -> [(o, o', a)] = [(o, o', b)].
Proof using. intros ->. reflexivity. Qed.

Lemma capply_gen c m v s0 Z0 I0 I1 :
  capply (constGen c m v s0 Z0 I0 I1) conc d =
  (- (ind (c =? d)%nat / v) + Rsum two (fun p => ind (oeqb (pid x p) d) / vp x p))
    * (rate x * (conc c * Z0 0%nat 0%nat + Rsum ax (fun i => cval conc (m i) * I0 i)))
  + Rsum ax (fun k =>
      - (ind (oeqb (m k) d) * (rate x * (conc c * Z0 s0 (S k) + Rsum ax (fun i => cval conc (m i) * I1 i s0 (S k))) / v))
      + Rsum two (fun p => ind (valid (pid x p)) * (ind (oeqb (mp x p k) d) *
          (rate x * (conc c * Z0 (p + 2)%nat (S k) + Rsum ax (fun i => cval conc (m i) * I1 i (p + 2)%nat (S k))) / vp x p)))).
Proof.
  unfold constGen. rewrite !capply_app, capply_cons, capply_nil, !capply_flat_map. cbn [colval oeqb].
  rewrite <- !Rplus_assoc. f_equal.
  - (* zeroth-moment rows *)
    rewrite (Rsum_ext two _ (fun p => ind (oeqb (pid x p) d) / vp x p * (rate x * (conc c * Z0 0%nat 0%nat)))).
    2:{ intros p _. rewrite capply_guard, capply_when, capply_cons, capply_nil, Rplus_0_r, Rmult_assoc, pin_pid.
        cbn [colval]. unfold Rdiv. ring. }
    rewrite Rsum_scal_r.
    rewrite (Rsum_ext ax _ (fun i => (- (ind (c =? d)%nat / v) + Rsum two (fun p => ind (oeqb (pid x p) d) / vp x p))
        * rate x * (cval conc (m i) * I0 i))).
    2:{ intros i _. rewrite capply_guard, capply_app, capply_cons, capply_nil, capply_flat_map. cbn [oeqb].
        rewrite (Rsum_ext two _ (fun p => ind (oeqb (pid x p) d) / vp x p * (colval conc (m i) * (I0 i * rate x)))).
        2:{ intros p _. rewrite capply_guard, capply_when, capply_cons, capply_nil, Rplus_0_r, Rmult_assoc, pin_pid.
            unfold Rdiv. ring. }
        rewrite Rsum_scal_r, <- valid_col. unfold Rdiv. ring. }
    rewrite Rsum_scal. unfold Rdiv. ring.
  - apply Rsum_ext. intros k _. rewrite capply_app, capply_guard, capply_flat_map. f_equal.
    + rewrite (capply_row' (m k) c m (- (rate x / v)) (Z0 s0 (S k)) (fun i => I1 i s0 (S k))).
      * rewrite !Rmult_assoc, ind_valid_sq. unfold Rdiv. ring.
      * f_equal; [apply sing; unfold Rdiv; ring|]. apply flat_map_ext. intros i. f_equal. apply sing. unfold Rdiv; ring.
    + apply Rsum_ext. intros p _. rewrite capply_guard, capply_when, capply_guard.
      rewrite (capply_row' (mp x p k) c m (rate x / vp x p) (Z0 (p + 2)%nat (S k)) (fun i => I1 i (p + 2)%nat (S k))).
      * rewrite !Rmult_assoc, ind_valid_sq, pin_mp. unfold Rdiv. ring.
      * f_equal; [apply sing; unfold Rdiv; ring|]. apply flat_map_ext. intros i. f_equal. apply sing. unfold Rdiv; ring.
Qed.

Lemma constFirst_gen : constFirst inS x conc =
  constGen (ra x) (ma x) (va x) 0 (dA0 x conc) (fun i => dA1 x conc i 0 0) (dA1 x conc).
Proof. reflexivity. Qed.
Lemma constSecond_gen : constSecond inS x conc =
  constGen (rb x) (mb x) (vb x) 1 (dB0 x conc) (dB1code x conc) (dB1 x conc).
Proof. reflexivity. Qed.

Lemma const_first : compactProducts x -> inS (ra x) = true -> inS (rb x) = false ->
  capply (prodConst inS x conc) conc d = acc (prodFlux x conc) d.
Proof.
  intros Hc Ha Hb. unfold prodConst. rewrite Ha, Hb, constFirst_gen, capply_gen, acc_prodFlux by exact Hc.
  unfold zw, mw. rewrite (out_rb Hb). f_equal.
  - rewrite fluxSum_A. unfold Rdiv. ring.
  - apply Rsum_ext. intros k _. rewrite (out_mb k Hb), fluxSum_A.
    rewrite (Rsum_ext two _ (fun p => ind (valid (pid x p)) * (ind (oeqb (mp x p k) d) *
       (fluxSum x conc (p + 2) (S k) / vp x p)))).
    + unfold Rdiv. ring.
    + intros p _. rewrite fluxSum_A. unfold Rdiv. ring.
Qed.

(** The second-reactant case needs the first-moment sum of line 1508 to be the
    right one. *)
Lemma const_second : compactProducts x -> inS (ra x) = false -> inS (rb x) = true ->
  Rsum ax (fun i => cval conc (mb x i) * dB1code x conc i) = Rsum ax (fun i => cval conc (mb x i) * dB1 x conc i 0 0) ->
  capply (prodConst inS x conc) conc d = acc (prodFlux x conc) d.
Proof.
  intros Hc Ha Hb HB. unfold prodConst. rewrite Ha, Hb, constSecond_gen, capply_gen, acc_prodFlux by exact Hc.
  unfold zw, mw. rewrite (out_ra Ha), HB. f_equal.
  - rewrite fluxSum_B. unfold Rdiv. ring.
  - apply Rsum_ext. intros k _. rewrite (out_ma k Ha), (fluxSum_B 1).
    rewrite (Rsum_ext two _ (fun p => ind (valid (pid x p)) * (ind (oeqb (mp x p k) d) *
       (fluxSum x conc (p + 2) (S k) / vp x p)))).
    + unfold Rdiv. ring.
    + intros p _. rewrite fluxSum_B. unfold Rdiv. ring.
Qed.

Lemma const_out : compactProducts x -> inS (ra x) = false -> inS (rb x) = false ->
  capply (prodConst inS x conc) conc d = acc (prodFlux x conc) d.
Proof.
  intros Hc Ha Hb.
  assert (E : prodConst inS x conc = if productInSub inS x then constOut inS x conc else []).
  { unfold prodConst, noProd, productInSub, pin. rewrite Ha, Hb.
    destruct (pid x 0), (pid x 1); reflexivity. }
  assert (E' : capply (prodConst inS x conc) conc d = capply (constOut inS x conc) conc d).
  { rewrite E. unfold productInSub. destruct (pin inS x 0) eqn:P0; [reflexivity|]. destruct (pin inS x 1) eqn:P1; [reflexivity|].
    cbn [orb]. unfold constOut. rewrite capply_app, !capply_flat_map, capply_nil.
    rewrite !Rsum_zero; [lra| |].
    - intros k _. rewrite capply_flat_map. apply Rsum_zero. intros p Hp. unfold two in Hp. apply in_seq in Hp.
      rewrite capply_guard, capply_when. destruct p as [|[|p]]; [rewrite P0|rewrite P1|lia]; unfold ind; ring.
    - intros p Hp. unfold two in Hp. apply in_seq in Hp. rewrite capply_guard, capply_when.
      destruct p as [|[|p]]; [rewrite P0|rewrite P1|lia]; unfold ind; ring. }
  rewrite E', acc_prodFlux by exact Hc. unfold constOut, zw, mw. rewrite capply_app, !capply_flat_map.
  rewrite (out_ra Ha), (out_rb Hb). f_equal.
  - rewrite (Rsum_ext two _ (fun p => ind (oeqb (pid x p) d) / vp x p * fluxSum x conc 0 0)).
    + rewrite Rsum_scal_r. unfold Rdiv. ring.
    + intros p Hp. unfold two in Hp. apply in_seq in Hp.
      rewrite capply_guard, capply_when, capply_cons, capply_nil, Rplus_0_r, Rmult_assoc, pin_pid.
      cbn [colval]. destruct p as [|[|p]]; [| |lia]; cbn [prodCounter].
      * unfold Rdiv; ring.
      * destruct (pid x 0) eqn:E0; cbn [valid]; [unfold Rdiv; ring|]. rewrite (Hc E0). cbn. unfold Rdiv. ring.
  - apply Rsum_ext. intros k _. rewrite (out_ma k Ha), (out_mb k Hb), capply_flat_map.
    rewrite (Rsum_ext two _ (fun p => ind (valid (pid x p)) * (ind (oeqb (mp x p k) d) *
       (fluxSum x conc (p + 2) (S k) / vp x p)))).
    + unfold Rdiv. ring.
    + intros p _. rewrite capply_guard, capply_when, capply_guard, capply_cons, capply_nil, Rplus_0_r.
      cbn [colval]. rewrite !Rmult_assoc, ind_valid_sq, pin_mp. unfold Rdiv. ring.
Qed.
End PC.

(** * Dissociation *)
Record subOfD (inS U : nat -> bool) (y : drx) : Prop := {
  v_rp : U (rp y) = inS (rp y);
  v_pid : forall p, U (dpid y p) = inS (dpid y p);
  v_mr : forall k d, mr y k = Some d -> U d = inS (rp y);
  v_mp : forall p k m, dmp y p k = Some m -> U m = inS (dpid y p)
}.

Section DC.
Variables (inS U : nat -> bool) (y : drx) (conc : nat -> R) (d : nat).
Hypothesis HS : subOfD inS U y.
Hypothesis Hd : U d = true.
Notation ax := (yaxes y).

Lemma dpin_pid p z : ind (inS (dpid y p)) * (ind (dpid y p =? d)%nat * z) = ind (dpid y p =? d)%nat * z.
Proof.
  unfold ind. destruct (Nat.eqb_spec (dpid y p) d) as [E|]; [|lra].
  rewrite <- E, (v_pid _ _ _ HS) in Hd. rewrite Hd. lra.
Qed.
Lemma dpin_mp p k z : ind (inS (dpid y p)) * (ind (oeqb (dmp y p k) d) * z) = ind (oeqb (dmp y p k) d) * z.
Proof.
  unfold ind. destruct (dmp y p k) as [m|] eqn:E; cbn [oeqb]; [|lra].
  destruct (Nat.eqb_spec m d) as [->|]; [|lra]. apply (v_mp _ _ _ HS) in E. rewrite <- E, Hd. lra.
Qed.
Lemma out_rp : inS (rp y) = false -> ind (rp y =? d)%nat = 0.
Proof.
  intros H. unfold ind. destruct (Nat.eqb_spec (rp y) d) as [<-|]; [|reflexivity].
  rewrite (v_rp _ _ _ HS) in Hd. congruence.
Qed.
Lemma out_mr k : inS (rp y) = false -> ind (oeqb (mr y k) d) = 0.
Proof.
  intros H. unfold ind. destruct (mr y k) as [m|] eqn:E; cbn; [|reflexivity].
  destruct (Nat.eqb_spec m d) as [->|]; [|reflexivity]. apply (v_mr _ _ _ HS) in E. congruence.
Qed.

Lemma dconst_out : inS (rp y) = false ->
  capply (dissConst inS y conc) conc d = acc (dissFlux y conc) d.
Proof.
  intros Hr.
  assert (E : capply (dissConst inS y conc) conc d = capply (dconstOut inS y conc) conc d).
  { unfold dissConst. rewrite Hr. cbn [negb andb]. destruct (inS (dpid y 0)) eqn:P0, (inS (dpid y 1)) eqn:P1; cbn [negb andb];
    try reflexivity. unfold dconstOut. rewrite P0, P1. cbn [when app].
    rewrite capply_flat_map, Rsum_zero; [reflexivity|]. intros; reflexivity. }
  rewrite E, acc_dissFlux. unfold dconstOut, dw.
  rewrite !capply_app, !capply_when, !capply_cons, !capply_nil, capply_flat_map, (out_rp Hr).
  rewrite !Rplus_0_r, !Rmult_assoc. cbn [oeqb colval]. rewrite !dpin_pid.
  rewrite <- !Rplus_assoc. f_equal; [ring|].
  apply Rsum_ext. intros k _. rewrite (out_mr k Hr), capply_app, !capply_when, !capply_guard, !capply_cons, !capply_nil.
  rewrite !Rplus_0_r, !Rmult_assoc. cbn [colval]. rewrite !ind_valid_sq, !dpin_mp. ring.
Qed.
End DC.
