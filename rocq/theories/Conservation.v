(** Microscopic meaning of the reaction fluxes and conservation of atoms. *)
From Verif Require Export DissCorrect FluxDiag.
Open Scope R_scope.

(** * Specification *)
Definition quad := (Z * Z * Z * Z)%type.
Definition qa (q : quad) : Z := let '(n, _, _, _) := q in n.
Definition qb (q : quad) : Z := let '(_, l, _, _) := q in l.
Definition qc (q : quad) : Z := let '(_, _, s, _) := q in s.
Definition qd (q : quad) : Z := let '(_, _, _, m) := q in m.
Definition q0 : quad := (0, 0, 0, 0)%Z.
Definition at_axis (t : list quad) (i : nat) : quad := nth i t q0.

(** All ways to choose, on each axis i < n, one element of [B i]. *)
Fixpoint comps (B : nat -> list quad) (n : nat) : list (list quad) :=
  match n with
  | O => [[]]
  | S m => flat_map (fun t => map (fun q => t ++ [q]) (B m)) (comps B m)
  end.

(** Concentration of one composition reconstructed from the moments
    (l0 + sum over axes of l1_i times the deviation from the mean). *)
Definition local (n : nat) (l0 : R) (l1 : nat -> R) (iv : nat -> ival) (x : nat -> Z) : R :=
  l0 + Rsum (seq 0 n) (fun i => l1 i * (IZR (x i) - imean (iv i))).

(** A network: its clusters with volume (number of compositions), amount ranges,
    dispersions and moment ids. *)
Record net := NT {
  ncl : list nat;
  nvol : nat -> R;
  niv : nat -> nat -> ival;
  ndisp : nat -> nat -> R;
  nmid : nat -> nat -> option nat
}.

(** Amount of species k held by the state [u]: each cluster holds its volume
    times (mean * zeroth moment + dispersion * first moment). *)
Definition content (N : net) (k : nat) (u : nat -> R) : R :=
  Rsum (ncl N) (fun c => nvol N c *
    (imean (niv N c k) * u c + ndisp N c k * cval u (nmid N c k))).

Record wfNet (N : net) : Prop := {
  n_nd : NoDup (ncl N);
  n_ids : wfIds (fun c => In c (ncl N)) (nmid N);
  n_vol : forall c, nvol N c <> 0;
  n_single : forall c k, nmid N c k = None -> ilen (niv N c k) = 1%Z
}.

(** * Library *)
Lemma comps_length B n t : In t (comps B n) -> length t = n.
Proof.
  revert t. induction n as [|n IH]; intros t H; cbn [comps] in H.
  - destruct H as [<-|[]]. reflexivity.
  - apply in_flat_map in H as (t' & Ht & H). apply in_map_iff in H as (q & <- & _).
    rewrite app_length. cbn. rewrite (IH _ Ht). lia.
Qed.

Lemma comps_In B n t : In t (comps B n) <-> length t = n /\ forall i, (i < n)%nat -> In (at_axis t i) (B i).
Proof.
  revert t. induction n as [|n IH]; intros t; cbn [comps].
  - split.
    + intros [<-|[]]. split; [reflexivity|]. intros i Hi. lia.
    + intros [H _]. destruct t; [left; reflexivity|discriminate].
  - rewrite in_flat_map. split.
    + intros (t' & Ht & H). apply in_map_iff in H as (q & <- & Hq).
      apply IH in Ht as [Hl Hi]. split; [rewrite app_length; cbn; lia|].
      intros i Hlt. unfold at_axis in *. destruct (Nat.eq_dec i n) as [->|Hne].
      * rewrite app_nth2, Hl, Nat.sub_diag by lia. exact Hq.
      * rewrite app_nth1 by lia. apply Hi. lia.
    + intros [Hl Hi].
      destruct (exists_last (l := t)) as (t' & q & ->); [intros ->; discriminate|].
      rewrite app_length in Hl. cbn in Hl. exists t'. split.
      * apply IH. split; [lia|]. intros i Hlt. specialize (Hi i ltac:(lia)). unfold at_axis in *.
        rewrite app_nth1 in Hi by lia. exact Hi.
      * apply in_map_iff. exists q. split; [reflexivity|]. specialize (Hi n ltac:(lia)). unfold at_axis in Hi.
        rewrite app_nth2 in Hi by lia. replace (n - length t')%nat with 0%nat in Hi by lia. exact Hi.
Qed.

Lemma Rprod_seq_S f n : Rprod (seq 0 (S n)) f = Rprod (seq 0 n) f * f n.
Proof. rewrite seq_S, Rprod_app. cbn. ring. Qed.

Lemma comps_fubini B n (f : nat -> quad -> R) :
  Rsum (comps B n) (fun t => Rprod (seq 0 n) (fun i => f i (at_axis t i))) =
  Rprod (seq 0 n) (fun i => Rsum (B i) (f i)).
Proof.
  induction n as [|n IH]; [cbn; lra|].
  rewrite Rprod_seq_S, <- IH. cbn [comps]. rewrite Rsum_flat_map, <- Rsum_scal_r.
  apply Rsum_ext. intros t Ht. rewrite Rsum_map, <- Rsum_scal. apply Rsum_ext. intros q _.
  rewrite Rprod_seq_S. apply comps_length in Ht. f_equal.
  - apply Rprod_ext. intros i Hi. apply in_seq in Hi. unfold at_axis. rewrite app_nth1 by lia. reflexivity.
  - unfold at_axis. rewrite app_nth2, Ht, Nat.sub_diag by lia. reflexivity.
Qed.

(** Selecting one weighted axis. *)
Lemma Rprod_wt a n (iv : nat -> ival) (x : nat -> Z) : (a <= n)%nat ->
  Rprod (seq 0 n) (fun i => wt a i (iv i) (x i)) =
  match a with O => 1 | S i => IZR (x i) - imean (iv i) end.
Proof.
  intros Ha. destruct a as [|i].
  - apply Rprod_one. intros i _. apply wt_1. discriminate.
  - rewrite (@Rprod_pt1 _ i).
    + apply wt_S.
    + apply seq_NoDup.
    + apply in_seq. lia.
    + intros j _ Hj. apply wt_1. congruence.
Qed.

Definition mom (l0 : R) (l1 : nat -> R) (a : nat) : R := match a with O => l0 | S i => l1 i end.

Lemma Rsum_seq_0 f n : Rsum (seq 0 (S n)) f = f 0%nat + Rsum (seq 0 n) (fun i => f (S i)).
Proof. cbn [seq Rsum]. rewrite <- seq_shift, Rsum_map. reflexivity. Qed.

Lemma local_mom n l0 l1 iv x :
  local n l0 l1 iv x =
  Rsum (seq 0 (S n)) (fun a => mom l0 l1 a * Rprod (seq 0 n) (fun i => wt a i (iv i) (x i))).
Proof.
  rewrite Rsum_seq_0, Rprod_wt by lia. unfold local. cbn [mom]. f_equal; [lra|].
  apply Rsum_ext. intros i Hi. apply in_seq in Hi. rewrite Rprod_wt by lia. reflexivity.
Qed.

(** * Production *)
Section PROD.
Variables (r : preact) (x : prx) (conc : nat -> R).
Hypothesis G : goodPR r.
Hypothesis Hna : xna x = na r.
Hypothesis Hcf : cf x = prodCoefs r.
Notation n := (na r).

Definition microR : list (list quad) :=
  comps (fun i => balanced (cl1 r i) (cl2 r i) (q1 r i) (q2 r i)) n.
Definition conc1 (t : list quad) : R :=
  local n (conc (ra x)) (fun i => cval conc (ma x i)) (cl1 r) (fun i => qa (at_axis t i)).
Definition conc2 (t : list quad) : R :=
  local n (conc (rb x)) (fun i => cval conc (mb x i)) (cl2 r) (fun i => qb (at_axis t i)).
(** Amount of participant s on axis i in a microscopic reaction, and its range. *)
Definition amount (s : nat) (q : quad) : Z :=
  match s with 0%nat => qa q | 1%nat => qb q | 2%nat => qc q | _ => qd q end.
Definition srange (s i : nat) : ival :=
  match s with 0%nat => cl1 r i | 1%nat => cl2 r i | 2%nat => q1 r i | _ => q2 r i end.
Definition dev (s k : nat) (t : list quad) : R :=
  match k with O => 1 | S i => IZR (amount s (at_axis t i)) - imean (srange s i) end.

Definition XA : nat -> R := mom (conc (ra x)) (fun i => cval conc (ma x i)).
Definition XB : nat -> R := mom (conc (rb x)) (fun i => cval conc (mb x i)).

Lemma fluxSum_bil s k : fluxSum x conc s k =
  rate x * Rsum (seq 0 (S n)) (fun a => Rsum (seq 0 (S n)) (fun b => cf x (Co a b s k) * (XA a * XB b))).
Proof.
  unfold fluxSum, xaxes. rewrite Hna, Rmult_comm. f_equal.
  rewrite Rsum_seq_0, Rsum_seq_0. unfold XA, XB, cR1, cR2, cmR1, cmR2. cbn [mom].
  rewrite (Rsum_ext _ (fun i => Rsum (seq 0 (S n)) _)
     (fun i => cf x (Co (S i) 0 s k) * (cval conc (ma x i) * conc (rb x))
        + Rsum (seq 0 n) (fun j => cf x (Co (S i) (S j) s k) * (cval conc (ma x i) * cval conc (mb x j)))))
    by (intros i _; rewrite Rsum_seq_0; reflexivity).
  rewrite !Rsum_plus.
  rewrite (Rsum_ext _ (fun i => cf x (Co (S i) 0 s k) * cval conc (ma x i) * conc (rb x))
     (fun i => cf x (Co (S i) 0 s k) * (cval conc (ma x i) * conc (rb x)))) by (intros; ring).
  rewrite (Rsum_ext _ (fun i => cf x (Co 0 (S i) s k) * conc (ra x) * cval conc (mb x i))
     (fun i => cf x (Co 0 (S i) s k) * (conc (ra x) * cval conc (mb x i)))) by (intros; ring).
  rewrite (Rsum_ext _ (fun i => Rsum (seq 0 n) (fun j => cf x (Co (S i) (S j) s k) * cval conc (ma x i) * cval conc (mb x j)))
     (fun i => Rsum (seq 0 n) (fun j => cf x (Co (S i) (S j) s k) * (cval conc (ma x i) * cval conc (mb x j)))))
    by (intros; apply Rsum_ext; intros; ring).
  ring.
Qed.

(** No entry read too early takes part. *)
Definition fresh (s k : nat) : Prop :=
  forall a b, (a <= n)%nat -> (b <= n)%nat -> stale a b s k = true -> XA a * XB b = 0.

Lemma spec_micro a b s k : (a <= n)%nat -> (b <= n)%nat -> (k <= n)%nat ->
  slotd r s k * specCoef r a b s k =
  Rsum microR (fun t => Rprod (seq 0 n) (fun i => wt a i (cl1 r i) (qa (at_axis t i)))
     * Rprod (seq 0 n) (fun i => wt b i (cl2 r i) (qb (at_axis t i))) * dev s k t).
Proof.
  intros Ha Hb Hk. pose proof (slotd_nz r G s k) as Hd.
  unfold specCoef. replace (slotd r s k * (_ / slotd r s k))
    with (Rprod (axes r) (fun i => axsum r i (fun n l p m =>
     wt a i (cl1 r i) n * wt b i (cl2 r i) l * slotw r s k i n l p m))) by (field; exact Hd).
  unfold axes, microR.
  rewrite (Rprod_ext _ _ (fun i => Rsum (balanced (cl1 r i) (cl2 r i) (q1 r i) (q2 r i))
     (fun q => wt a i (cl1 r i) (qa q) * wt b i (cl2 r i) (qb q) * slotw r s k i (qa q) (qb q) (qc q) (qd q)))).
  2:{ intros i _. unfold axsum. rewrite msum_balanced. apply Rsum_ext. intros [[[u v] w] z] _. reflexivity. }
  rewrite <- (comps_fubini _ n (fun i q => wt a i (cl1 r i) (qa q) * wt b i (cl2 r i) (qb q)
     * slotw r s k i (qa q) (qb q) (qc q) (qd q))).
  apply Rsum_ext. intros t _. rewrite !Rprod_mult. f_equal.
  destruct k as [|k].
  - apply Rprod_one. intros i _. apply slotw_1. discriminate.
  - rewrite (@Rprod_pt1 _ k).
    + unfold dev, amount, srange, slotw. destruct s as [|[|[|s]]]; apply wt_S.
    + apply seq_NoDup.
    + apply in_seq. lia.
    + intros j _ Hj. apply slotw_1. congruence.
Qed.

Lemma flux_micro s k : (k <= n)%nat -> (s < 4)%nat -> (k = 0%nat -> s = 0%nat) ->
  (2 <= s -> validProd r (s - 2) = true)%nat -> fresh s k ->
  slotd r s k * fluxSum x conc s k =
  rate x * Rsum microR (fun t => conc1 t * conc2 t * dev s k t).
Proof.
  intros Hk Hs Hk0 Hv Hf. rewrite fluxSum_bil, Hcf.
  rewrite <- Rmult_assoc, (Rmult_comm (slotd r s k)), Rmult_assoc. f_equal.
  rewrite <- Rsum_scal.
  transitivity (Rsum (seq 0 (S n)) (fun a => Rsum (seq 0 (S n)) (fun b => Rsum microR (fun t =>
     XA a * Rprod (seq 0 n) (fun i => wt a i (cl1 r i) (qa (at_axis t i))) *
     (XB b * Rprod (seq 0 n) (fun i => wt b i (cl2 r i) (qb (at_axis t i)))) * dev s k t)))).
  - apply Rsum_ext. intros a Ha. apply in_seq in Ha. rewrite <- Rsum_scal.
    apply Rsum_ext. intros b Hb. apply in_seq in Hb.
    transitivity (XA a * XB b * (slotd r s k * specCoef r a b s k)).
    + rewrite (coef_correct r G a b s k) by (assumption || lia).
      destruct (stale a b s k) eqn:St; [|ring].
      rewrite (Hf a b) by (assumption || lia). ring.
    + rewrite spec_micro, <- Rsum_scal by lia. apply Rsum_ext. intros t _. ring.
  - rewrite (Rsum_ext _ _ (fun a => Rsum microR (fun t => Rsum (seq 0 (S n)) (fun b =>
      XA a * Rprod (seq 0 n) (fun i => wt a i (cl1 r i) (qa (at_axis t i))) *
     (XB b * Rprod (seq 0 n) (fun i => wt b i (cl2 r i) (qb (at_axis t i)))) * dev s k t))))
      by (intros; apply Rsum_swap).
    rewrite Rsum_swap. apply Rsum_ext. intros t _.
    unfold conc1, conc2. rewrite !local_mom.
    rewrite <- Rsum_scal_r, <- Rsum_scal_r. apply Rsum_ext. intros a _.
    rewrite <- Rsum_scal, <- Rsum_scal_r. apply Rsum_ext. intros b _. unfold XA, XB. ring.
Qed.

Lemma fresh_0 s : fresh 0 0 /\ fresh s 1.
Proof using.
  clear Hna Hcf.
  split; intros a b _ _ H; exfalso.
  - unfold stale in H. apply Bool.orb_prop in H as [H|H]; repeat (apply andb_prop in H as [H ?]);
        repeat match goal with H : (_ <? _)%nat = true |- _ => apply Nat.ltb_lt in H
          | H : (_ =? _)%nat = true |- _ => apply Nat.eqb_eq in H end; lia.
  - unfold stale in H. destruct s as [|[|]].
    + apply Bool.orb_prop in H as [H|H]; repeat (apply andb_prop in H as [H ?]);
        repeat match goal with H : (_ <? _)%nat = true |- _ => apply Nat.ltb_lt in H
          | H : (_ =? _)%nat = true |- _ => apply Nat.eqb_eq in H end; lia.
    + repeat (apply andb_prop in H as [H ?]);
        repeat match goal with H : (_ <? _)%nat = true |- _ => apply Nat.ltb_lt in H
          | H : (_ =? _)%nat = true |- _ => apply Nat.eqb_eq in H end; lia.
    + apply Bool.orb_prop in H as [H|H]; repeat (apply andb_prop in H as [H ?]);
        repeat match goal with H : (_ <? _)%nat = true |- _ => apply Nat.ltb_lt in H
          | H : (_ =? _)%nat = true |- _ => apply Nat.eqb_eq in H end; lia.
Qed.

(** First moments of both reactants vanish on the axes before k. *)
Definition earlier_flat (k : nat) : Prop :=
  forall i, (i < k)%nat -> cval conc (ma x i) = 0 /\ cval conc (mb x i) = 0.

Lemma fresh_flat s k : earlier_flat k -> fresh s (S k).
Proof using.
  clear Hna Hcf.
  intros He a b _ _ H.
  assert (HX : forall a, (0 < a)%nat -> (a < S k)%nat -> XA a = 0 /\ XB a = 0).
  { intros [|i] H1 H2; [lia|]. unfold XA, XB; cbn [mom]. apply He. lia. }
  unfold stale in H. destruct s as [|[|]].
  + apply Bool.orb_prop in H as [H|H]; repeat (apply andb_prop in H as [H ?]);
        repeat match goal with H : (_ <? _)%nat = true |- _ => apply Nat.ltb_lt in H
          | H : (_ =? _)%nat = true |- _ => apply Nat.eqb_eq in H end.
    * rewrite (proj2 (HX b ltac:(lia) ltac:(lia))). ring.
    * rewrite (proj1 (HX a ltac:(lia) ltac:(lia))). ring.
  + repeat (apply andb_prop in H as [H ?]);
        repeat match goal with H : (_ <? _)%nat = true |- _ => apply Nat.ltb_lt in H
          | H : (_ =? _)%nat = true |- _ => apply Nat.eqb_eq in H end.
    rewrite (proj1 (HX a ltac:(lia) ltac:(lia))). ring.
  + apply Bool.orb_prop in H as [H|H]; repeat (apply andb_prop in H as [H ?]);
        repeat match goal with H : (_ <? _)%nat = true |- _ => apply Nat.ltb_lt in H
          | H : (_ =? _)%nat = true |- _ => apply Nat.eqb_eq in H end.
    * rewrite (proj1 (HX a ltac:(lia) ltac:(lia))). ring.
    * rewrite (proj2 (HX b ltac:(lia) ltac:(lia))). ring.
Qed.

Lemma micro_balanced t i : In t microR -> (i < n)%nat ->
  (qa (at_axis t i) + qb (at_axis t i) = qc (at_axis t i) + qd (at_axis t i))%Z.
Proof using.
  clear Hna Hcf.
  intros H Hi. apply comps_In in H as [_ H]. specialize (H i Hi).
  destruct (at_axis t i) as [[[u v] w] z]. apply balanced_In in H as (_ & _ & _ & _ & H). exact H.
Qed.
Lemma micro_range s t i : In t microR -> (i < n)%nat -> In (amount s (at_axis t i)) (pts (srange s i)).
Proof using.
  clear Hna Hcf.
  intros H Hi. apply comps_In in H as [_ H]. specialize (H i Hi).
  destruct (at_axis t i) as [[[u v] w] z]. apply balanced_In in H as (H1 & H2 & H3 & H4 & _).
  destruct s as [|[|[|s]]]; assumption.
Qed.
Lemma single_dev s k t : In t microR -> (k < n)%nat -> ilen (srange s k) = 1%Z -> dev s (S k) t = 0.
Proof using.
  clear Hna Hcf.
  intros Ht Hk Hl. pose proof (micro_range s t k Ht Hk) as H. apply pts_In in H.
  unfold dev, imean, ilen in *. 
  replace (amount s (at_axis t k)) with (ib (srange s k)) by lia.
  replace (ie (srange s k) - 1 + ib (srange s k))%Z with (2 * ib (srange s k))%Z by lia.
  rewrite mult_IZR. lra.
Qed.
End PROD.

(** * Content of contributions *)
Section CONTENT.
Variable N : net.
Hypothesis WN : wfNet N.

Lemma content_app k l1 l2 : content N k (acc (l1 ++ l2)) = content N k (acc l1) + content N k (acc l2).
Proof.
  unfold content. rewrite <- Rsum_plus. apply Rsum_ext. intros c _.
  rewrite acc_app. destruct (nmid N c k); cbn [cval]; rewrite ?acc_app; ring.
Qed.
Lemma content_nil k : content N k (acc []) = 0.
Proof.
  unfold content. apply Rsum_zero. intros c _. rewrite acc_nil. destruct (nmid N c k); cbn [cval]; rewrite ?acc_nil; ring.
Qed.
Lemma content_flat_map A (f : A -> contribs) l k :
  content N k (acc (flat_map f l)) = Rsum l (fun a => content N k (acc (f a))).
Proof.
  induction l as [|a t IH]; simpl; [apply content_nil|]. rewrite content_app, IH. reflexivity.
Qed.

Lemma content_cl k c v : In c (ncl N) -> content N k (acc [(c, v)]) = nvol N c * imean (niv N c k) * v.
Proof.
  intros Hc. unfold content. rewrite (@Rsum_single _ (ncl N) _ c (n_nd N WN) Hc).
  - rewrite acc_cons, acc_nil, Nat.eqb_refl. change (ind true) with 1.
    destruct (nmid N c k) as [d|] eqn:E; cbn [cval]; [|ring].
    rewrite acc_cons, acc_nil. replace (c =? d)%nat with false; [change (ind false) with 0; ring|].
    symmetry. apply Nat.eqb_neq. intros ->. exact (w_fresh _ _ (n_ids N WN) _ _ _ E Hc).
  - intros c' Hc' Hne. rewrite acc_cons, acc_nil.
    replace (c =? c')%nat with false by (symmetry; apply Nat.eqb_neq; congruence). change (ind false) with 0.
    destruct (nmid N c' k) as [d|] eqn:E; cbn [cval]; [|ring].
    rewrite acc_cons, acc_nil. replace (c =? d)%nat with false; [change (ind false) with 0; ring|].
    symmetry. apply Nat.eqb_neq. intros ->. exact (w_fresh _ _ (n_ids N WN) _ _ _ E Hc).
Qed.

Lemma content_mom k c k' v : In c (ncl N) ->
  content N k (acc (gadd (nmid N c k') v)) =
  ind (valid (nmid N c k') && (k =? k')%nat)%bool * (nvol N c * ndisp N c k * v).
Proof.
  intros Hc. destruct (nmid N c k') as [d|] eqn:E; cbn [gadd valid andb].
  2:{ rewrite content_nil. change (ind false) with 0. ring. }
  assert (Hcl : forall c', In c' (ncl N) -> ind (d =? c')%nat = 0).
  { intros c' Hc'. replace (d =? c')%nat with false; [reflexivity|].
    symmetry. apply Nat.eqb_neq. intros ->. exact (w_fresh _ _ (n_ids N WN) _ _ _ E Hc'). }
  unfold content. rewrite (@Rsum_single _ (ncl N) _ c (n_nd N WN) Hc).
  - rewrite acc_cons, acc_nil, Hcl by exact Hc.
    destruct (Nat.eqb_spec k k') as [->|Hk].
    + rewrite E. cbn [cval]. rewrite acc_cons, acc_nil, Nat.eqb_refl. change (ind true) with 1. ring.
    + change (ind false) with 0. destruct (nmid N c k) as [d'|] eqn:E'; cbn [cval]; [|ring].
      rewrite acc_cons, acc_nil. replace (d =? d')%nat with false; [change (ind false) with 0; ring|].
      symmetry. apply Nat.eqb_neq. intros ->. destruct (w_inj _ _ (n_ids N WN) _ _ _ _ _ E E'). congruence.
  - intros c' Hc' Hne. rewrite acc_cons, acc_nil, Hcl by exact Hc'.
    destruct (nmid N c' k) as [d'|] eqn:E'; cbn [cval]; [|ring].
    rewrite acc_cons, acc_nil. replace (d =? d')%nat with false; [change (ind false) with 0; ring|].
    symmetry. apply Nat.eqb_neq. intros ->. destruct (w_inj _ _ (n_ids N WN) _ _ _ _ _ E E'). congruence.
Qed.

(** A sum over axes of first-moment contributions only sees axis k. *)
Lemma content_axis k n c (g : nat -> R) : In c (ncl N) -> (k < n)%nat ->
  Rsum (seq 0 n) (fun k' => content N k (acc (gadd (nmid N c k') (g k')))) =
  ind (valid (nmid N c k)) * (nvol N c * ndisp N c k * g k).
Proof.
  intros Hc Hk. rewrite (@Rsum_single _ (seq 0 n) _ k (seq_NoDup _ _)).
  - rewrite content_mom, Nat.eqb_refl, Bool.andb_true_r by exact Hc. reflexivity.
  - apply in_seq. lia.
  - intros k' _ Hne. rewrite content_mom by exact Hc.
    replace (k =? k')%nat with false by (symmetry; apply Nat.eqb_neq; congruence).
    rewrite Bool.andb_false_r. change (ind false) with 0. ring.
Qed.
End CONTENT.

(** The reaction [x], with coefficients computed from the geometry [r], is a
    reaction of the network [N]; an absent product holds the single amount 0. *)
Record inNet (N : net) (r : preact) (x : prx) : Prop := {
  i_na : xna x = na r;
  i_cf : cf x = prodCoefs r;
  i_ra : In (ra x) (ncl N);
  i_rb : In (rb x) (ncl N);
  i_pid : forall p d, pid x p = Some d -> In d (ncl N);
  i_ma : forall k, ma x k = nmid N (ra x) k;
  i_mb : forall k, mb x k = nmid N (rb x) k;
  i_mp : forall p d k, pid x p = Some d -> mp x p k = nmid N d k;
  i_va : va x = nvol N (ra x);
  i_vb : vb x = nvol N (rb x);
  i_vp : forall p d, pid x p = Some d -> vp x p = nvol N d;
  i_cl1 : forall k, cl1 r k = niv N (ra x) k;
  i_cl2 : forall k, cl2 r k = niv N (rb x) k;
  i_q1 : forall k, q1 r k = match pid x 0 with Some d => niv N d k | None => Iv 0 1 end;
  i_q2 : forall k, q2 r k = match pid x 1 with Some d => niv N d k | None => Iv 0 1 end;
  i_disp1 : forall k, disp1 r k = ndisp N (ra x) k;
  i_disp2 : forall k, disp2 r k = ndisp N (rb x) k;
  i_pdisp1 : forall d k, pid x 0 = Some d -> pdisp1 r k = ndisp N d k;
  i_pdisp2 : forall d k, pid x 1 = Some d -> pdisp2 r k = ndisp N d k;
  i_v1 : v1 r = valid (pid x 0);
  i_v2 : v2 r = valid (pid x 1)
}.

Section CONS.
Variables (N : net) (r : preact) (x : prx) (conc : nat -> R).
Hypothesis WN : wfNet N.
Hypothesis G : goodPR r.
Hypothesis I : inNet N r x.
Hypothesis CP : compactProducts x.
Notation n := (na r).
Notation Fl := (fluxSum x conc).
Notation M f := (rate x * Rsum (microR r) (fun t => conc1 r x conc t * conc2 r x conc t * f t)).

Lemma M_0 f : (forall t, In t (microR r) -> f t = 0) -> M f = 0.
Proof. intros H. rewrite Rsum_zero; [ring|]. intros t Ht. rewrite H by exact Ht. ring. Qed.

(** The content gained by the reactants and products on axis k. *)
Lemma content_prodFlux k : (k < n)%nat ->
  content N k (acc (prodFlux x conc)) =
  - (imean (cl1 r k) * Fl 0 0 + ind (valid (ma x k)) * (disp1 r k * Fl 0 (S k)))
  - (imean (cl2 r k) * Fl 0 0 + ind (valid (mb x k)) * (disp2 r k * Fl 1 (S k)))
  + (imean (q1 r k) * Fl 0 0 + ind (valid (pid x 0)) * (ind (valid (mp x 0 k)) * (pdisp1 r k * Fl 2 (S k))))
  + (imean (q2 r k) * Fl 0 0 + ind (valid (pid x 1)) * (ind (valid (mp x 1 k)) * (pdisp2 r k * Fl 3 (S k)))).
Proof.
  intros Hk. unfold prodFlux.
  change [(ra x, - (fluxSum x conc 0 0 / va x)); (rb x, - (fluxSum x conc 0 0 / vb x))]
    with ([(ra x, - (fluxSum x conc 0 0 / va x))] ++ [(rb x, - (fluxSum x conc 0 0 / vb x))]).
  rewrite !(content_app N), !(content_flat_map N).
  rewrite !(content_cl N WN) by apply I.
  rewrite (Rsum_ext (xaxes x) _ (fun k' =>
     content N k (acc (gadd (ma x k') (- (Fl 0 (S k') / va x)))) +
     content N k (acc (gadd (mb x k') (- (Fl 1 (S k') / vb x)))) +
     (content N k (acc (guard (pid x 0) (gadd (mp x 0 k') (Fl 2 (S k') / vp x 0)))) +
      content N k (acc (guard (pid x 1) (gadd (mp x 1 k') (Fl 3 (S k') / vp x 1))))))).
  2:{ intros k' _. rewrite !(content_app N), (content_flat_map N). cbn [two seq Rsum Nat.add]. ring. }
  rewrite !Rsum_plus. unfold xaxes. rewrite (i_na _ _ _ I).
  assert (HM : forall (m : nat -> option nat) c g, (forall k, m k = nmid N c k) -> In c (ncl N) ->
     Rsum (seq 0 n) (fun k' => content N k (acc (gadd (m k') (g k')))) =
     ind (valid (m k)) * (nvol N c * ndisp N c k * g k)).
  { intros m c g Hm Hc. rewrite (Rsum_ext _ _ (fun k' => content N k (acc (gadd (nmid N c k') (g k')))))
      by (intros; rewrite Hm; reflexivity). rewrite Hm. apply content_axis; assumption. }
  rewrite (HM (ma x) (ra x) (fun k' => - (Fl 0 (S k') / va x)) (i_ma _ _ _ I) (i_ra _ _ _ I)).
  rewrite (HM (mb x) (rb x) (fun k' => - (Fl 1 (S k') / vb x)) (i_mb _ _ _ I) (i_rb _ _ _ I)).
  assert (HP : forall p, Rsum (seq 0 n) (fun k' => content N k (acc (guard (pid x p) (gadd (mp x p k') (Fl (p + 2) (S k') / vp x p)))))
     = ind (valid (pid x p)) * (ind (valid (mp x p k)) *
       (match pid x p with Some d => ndisp N d k | None => 0 end * Fl (p + 2) (S k)))).
  { intros p. destruct (pid x p) as [d|] eqn:E; cbn [guard valid].
    - rewrite (HM (mp x p) d (fun k' => Fl (p + 2) (S k') / vp x p)
        (fun k' => i_mp _ _ _ I p d k' E) (i_pid _ _ _ I p d E)).
      rewrite (i_vp _ _ _ I p d E). change (ind true) with 1. field. apply WN.
    - change (ind false) with 0. rewrite Rsum_zero; [ring|]. intros; apply content_nil. }
  pose proof (HP 0%nat) as HP0. pose proof (HP 1%nat) as HP1. cbn [Nat.add] in HP0, HP1.
  rewrite HP0, HP1. clear HP HP0 HP1.
  assert (HZ : Rsum two (fun p => content N k (acc (gadd (pid x p) (Fl 0 0 / vp x (prodCounter x p)))))
     = imean (q1 r k) * Fl 0 0 + imean (q2 r k) * Fl 0 0).
  { cbn [two seq Rsum]. rewrite Rplus_0_r. rewrite (i_q1 _ _ _ I), (i_q2 _ _ _ I).
    assert (Hz : imean (Iv 0 1) = 0) by (unfold imean; cbn; lra).
    f_equal.
    - cbn [prodCounter]. destruct (pid x 0) as [d|] eqn:E; cbn [gadd].
      + rewrite (content_cl N WN) by exact (i_pid _ _ _ I _ _ E). rewrite (i_vp _ _ _ I _ _ E). field. apply WN.
      + rewrite content_nil, Hz. ring.
    - cbn [prodCounter]. destruct (pid x 1) as [d|] eqn:E; cbn [gadd].
      + destruct (pid x 0) eqn:E0; [|rewrite (CP E0) in E; discriminate]. cbn [valid].
        rewrite (content_cl N WN) by exact (i_pid _ _ _ I _ _ E). rewrite (i_vp _ _ _ I _ _ E). field. apply WN.
      + rewrite content_nil, Hz. ring. }
  rewrite HZ. rewrite (i_va _ _ _ I), (i_vb _ _ _ I).
  rewrite !(i_cl1 _ _ _ I), !(i_cl2 _ _ _ I), !(i_disp1 _ _ _ I), !(i_disp2 _ _ _ I).
  assert (HV := n_vol N WN).
  replace (pdisp1 r k) with (match pid x 0 with Some d => ndisp N d k | None => pdisp1 r k end)
    by (destruct (pid x 0) eqn:E; [symmetry; apply (i_pdisp1 _ _ _ I); exact E|reflexivity]).
  replace (pdisp2 r k) with (match pid x 1 with Some d => ndisp N d k | None => pdisp2 r k end)
    by (destruct (pid x 1) eqn:E; [symmetry; apply (i_pdisp2 _ _ _ I); exact E|reflexivity]).
  destruct (pid x 0), (pid x 1); cbn [valid]; change (ind true) with 1; change (ind false) with 0;
    field; split; apply HV.
Qed.

Theorem prod_conserved k : (k < n)%nat -> earlier_flat x conc k ->
  content N k (acc (prodFlux x conc)) = 0.
Proof.
  intros Hk He. rewrite content_prodFlux by exact Hk.
  pose proof (i_na _ _ _ I) as Hna. pose proof (i_cf _ _ _ I) as Hcf.
  assert (H00 : Fl 0 0 = M (fun _ => 1)).
  { pose proof (flux_micro r x conc G Hna Hcf 0%nat 0%nat ltac:(lia) ltac:(lia) ltac:(auto) ltac:(lia)
      (proj1 (fresh_0 r x conc 0%nat))) as H. cbn [slotd] in H. rewrite Rmult_1_l in H. rewrite H. f_equal. }
  assert (HS : forall s, (s < 4)%nat -> (2 <= s -> validProd r (s - 2) = true)%nat ->
     slotd r s (S k) * Fl s (S k) = M (dev r s (S k))).
  { intros s Hs Hv. apply flux_micro; try assumption; try lia. apply fresh_flat. exact He. }
  assert (HA : ind (valid (ma x k)) * (disp1 r k * Fl 0 (S k)) = M (dev r 0 (S k))).
  { pose proof (HS 0%nat ltac:(lia) ltac:(lia)) as H. cbn [slotd] in H. rewrite H.
    destruct (ma x k) as [d|] eqn:E; cbn [valid]; [change (ind true) with 1; ring|].
    rewrite M_0; [ring|]. intros t Ht. apply single_dev; [exact Ht|exact Hk|]. cbn [srange].
    rewrite (i_cl1 _ _ _ I). apply WN. rewrite <- (i_ma _ _ _ I). exact E. }
  assert (HB : ind (valid (mb x k)) * (disp2 r k * Fl 1 (S k)) = M (dev r 1 (S k))).
  { pose proof (HS 1%nat ltac:(lia) ltac:(lia)) as H. cbn [slotd] in H. rewrite H.
    destruct (mb x k) as [d|] eqn:E; cbn [valid]; [change (ind true) with 1; ring|].
    rewrite M_0; [ring|]. intros t Ht. apply single_dev; [exact Ht|exact Hk|]. cbn [srange].
    rewrite (i_cl2 _ _ _ I). apply WN. rewrite <- (i_mb _ _ _ I). exact E. }
  assert (HC : ind (valid (pid x 0)) * (ind (valid (mp x 0 k)) * (pdisp1 r k * Fl 2 (S k))) = M (dev r 2 (S k))).
  { destruct (pid x 0) as [d|] eqn:E; cbn [valid].
    - pose proof (HS 2%nat ltac:(lia)) as H. cbn [slotd Nat.sub validProd] in H. rewrite H.
      2:{ intros _. rewrite (i_v1 _ _ _ I), E. reflexivity. }
      destruct (mp x 0 k) as [e|] eqn:E'; cbn [valid]; [change (ind true) with 1; ring|].
      rewrite M_0; [ring|]. intros t Ht. apply single_dev; [exact Ht|exact Hk|]. cbn [srange].
      rewrite (i_q1 _ _ _ I), E. apply WN. rewrite <- (i_mp _ _ _ I 0%nat d k E). exact E'.
    - rewrite M_0; [change (ind false) with 0; ring|]. intros t Ht. apply single_dev; [exact Ht|exact Hk|].
      cbn [srange]. rewrite (i_q1 _ _ _ I), E. reflexivity. }
  assert (HD : ind (valid (pid x 1)) * (ind (valid (mp x 1 k)) * (pdisp2 r k * Fl 3 (S k))) = M (dev r 3 (S k))).
  { destruct (pid x 1) as [d|] eqn:E; cbn [valid].
    - pose proof (HS 3%nat ltac:(lia)) as H. cbn [slotd Nat.sub validProd] in H. rewrite H.
      2:{ intros _. rewrite (i_v2 _ _ _ I), E. reflexivity. }
      destruct (mp x 1 k) as [e|] eqn:E'; cbn [valid]; [change (ind true) with 1; ring|].
      rewrite M_0; [ring|]. intros t Ht. apply single_dev; [exact Ht|exact Hk|]. cbn [srange].
      rewrite (i_q2 _ _ _ I), E. apply WN. rewrite <- (i_mp _ _ _ I 1%nat d k E). exact E'.
    - rewrite M_0; [change (ind false) with 0; ring|]. intros t Ht. apply single_dev; [exact Ht|exact Hk|].
      cbn [srange]. rewrite (i_q2 _ _ _ I), E. reflexivity. }
  rewrite HA, HB, HC, HD, H00.
  transitivity (M (fun t => - (imean (cl1 r k) + dev r 0 (S k) t) - (imean (cl2 r k) + dev r 1 (S k) t)
     + (imean (q1 r k) + dev r 2 (S k) t) + (imean (q2 r k) + dev r 3 (S k) t))).
  - rewrite (Rsum_ext (microR r) (fun t => _ * _ * (- (imean _ + _) - _ + _ + _))
      (fun t => - imean (cl1 r k) * (conc1 r x conc t * conc2 r x conc t * 1)
        + -1 * (conc1 r x conc t * conc2 r x conc t * dev r 0 (S k) t)
        + - imean (cl2 r k) * (conc1 r x conc t * conc2 r x conc t * 1)
        + -1 * (conc1 r x conc t * conc2 r x conc t * dev r 1 (S k) t)
        + imean (q1 r k) * (conc1 r x conc t * conc2 r x conc t * 1)
        + (conc1 r x conc t * conc2 r x conc t * dev r 2 (S k) t)
        + imean (q2 r k) * (conc1 r x conc t * conc2 r x conc t * 1)
        + (conc1 r x conc t * conc2 r x conc t * dev r 3 (S k) t))) by (intros; ring).
    rewrite !Rsum_plus, !Rsum_scal. ring.
  - apply M_0. intros t Ht. pose proof (micro_balanced r t k Ht Hk) as Hb.
    unfold dev, amount, srange. apply (f_equal IZR) in Hb. rewrite !plus_IZR in Hb. lra.
Qed.
End CONS.
