(** C81: the values of the Jacobian reach the entries for which they are computed, in zero, two
    and three dimensions. *)
From Coq Require Import Reals List ZArith Bool Lia Lra.
From Verif Require Import Sums StreamModel.
From Verif Require ConnModel.
Import ListNotations.
Open Scope Z_scope.

(** ** Labels *)
Lemma pteq_spec a b : pteq a b = true <-> a = b.
Proof.
  destruct a as [[a1 a2] a3], b as [[b1 b2] b3]. unfold pteq, ptx, pty, ptz. cbn [fst snd].
  rewrite !andb_true_iff, !Z.eqb_eq. split; [intros [[-> ->] ->]; reflexivity|intros [= -> -> ->]; auto].
Qed.
Lemma labEq_spec a b : labEq a b = true <-> a = b.
Proof.
  destruct a as [[a1 a2] [a3 a4]], b as [[b1 b2] [b3 b4]]. unfold labEq. cbn [fst snd].
  rewrite !andb_true_iff, !pteq_spec, !Nat.eqb_eq. split; [intros [[[-> ->] ->] ->]; reflexivity|].
  intros [= -> -> -> ->]. auto.
Qed.
Definition stands (cs : list (option Label)) (ws : Writes) : Prop :=
  forall w, In w ws -> nth_error cs (fst w) = Some (Some (snd w)).
Lemma assembled_spec cs (ws : list ((nat * Label) * R)) e :
  (forall w, In w ws -> nth_error cs (fst (fst w)) = Some (Some (snd (fst w)))) ->
  assembled cs ws e = Rsum ws (fun w => if labEq (snd (fst w)) e then snd w else 0%R).
Proof.
  intros H. unfold assembled, cell.
  etransitivity.
  { apply (Rsum_ext _ _ (fun k => Rsum ws (fun w => match nth k cs None with Some l => if labEq l e then (if Nat.eqb (fst (fst w)) k then snd w else 0%R) else 0%R | None => 0%R end))).
    intros k _. destruct (nth k cs None) as [l|]; [destruct (labEq l e)|]; auto; symmetry; apply Rsum_0. }
  rewrite Rsum_swap. apply Rsum_ext. intros w Hw. specialize (H w Hw).
  assert (Hlt : (fst (fst w) < length cs)%nat) by (apply nth_error_Some; congruence).
  rewrite (@Rsum_single _ _ _ (fst (fst w))).
  - apply nth_error_nth with (d := None) in H. rewrite H, Nat.eqb_refl. reflexivity.
  - apply seq_NoDup.
  - apply in_seq. lia.
  - intros k _ Hk. destruct (nth k cs None) as [l|]; [|reflexivity]. destruct (labEq l e); [|reflexivity].
    destruct (Nat.eqb_spec (fst (fst w)) k); congruence.
Qed.
Lemma stands_app cs a b : stands cs a -> stands cs b -> stands cs (a ++ b).
Proof. intros Ha Hb w Hw. apply in_app_or in Hw. destruct Hw; auto. Qed.
Lemma stands_place pre l post : stands (pre ++ map Some l ++ post) (place (length pre) l).
Proof.
  unfold place. revert pre. induction l as [|x l IH]; intros pre w Hw; [destruct Hw|].
  cbn [length seq combine] in Hw. destruct Hw as [<-|Hw].
  - cbn [fst snd]. rewrite nth_error_app2, Nat.sub_diag by lia. reflexivity.
  - specialize (IH (pre ++ [Some x])). rewrite app_length in IH. cbn [length] in IH. rewrite Nat.add_comm in IH.
    specialize (IH w Hw). rewrite <- app_assoc in IH. exact IH.
Qed.
Lemma stands_placeAll vs : forall pre post, (forall n l, In (n, l) vs -> n = length l) ->
  stands (pre ++ map Some (concat (map snd vs)) ++ post) (placeAll (length pre) vs).
Proof.
  induction vs as [|[n l] vs IH]; intros pre post Hn; [intros w []|].
  cbn [placeAll map concat snd]. apply stands_app.
  - rewrite map_app, <- app_assoc. apply stands_place.
  - rewrite (Hn n l) by (left; reflexivity).
    replace (length pre + length l)%nat with (length (pre ++ map Some l)) by (rewrite app_length, map_length; reflexivity).
    rewrite map_app. specialize (IH (pre ++ map Some l) post). rewrite <- !app_assoc in *. apply IH.
    intros n' l' H. apply Hn. right. exact H.
Qed.
Lemma map_flat_map {A B C} (g : B -> C) (f : A -> list B) l : map g (flat_map f l) = flat_map (fun x => map g (f x)) l.
Proof. induction l; [reflexivity|]. cbn [flat_map]. rewrite map_app, IHl. reflexivity. Qed.
Lemma flat_map_flat_map {A B C} (f : A -> list B) (g : B -> list C) l : flat_map g (flat_map f l) = flat_map (fun x => flat_map g (f x)) l.
Proof. induction l; [reflexivity|]. cbn [flat_map]. rewrite flat_map_app, IHl. reflexivity. Qed.
Lemma len_flat {A B} (f : A -> list B) n l : (forall x, In x l -> length (f x) = n) -> length (flat_map f l) = (n * length l)%nat.
Proof.
  induction l as [|x l IH]; intros H; [cbn; lia|]. cbn [flat_map length]. rewrite app_length, IH by (intros; apply H; right; auto).
  rewrite H by (left; auto). lia.
Qed.
Lemma located_clusters l hs : map (fun h => length (clusters h)) (located l hs) = map (fun h => length (clusters h)) hs.
Proof. destruct hs; reflexivity. Qed.
Lemma nAdvec_located l hs : nAdvec (located l hs) = nAdvec hs.
Proof. unfold nAdvec. rewrite located_clusters. reflexivity. Qed.
Lemma length_located l hs : length (located l hs) = length hs.
Proof. destruct hs; reflexivity. Qed.

Section STREAM.
Variables (star : list Pt) (m : Mesh) (skip : Pt -> bool) (xpos : Z -> R) (hy hz : R) (hs : list Handler)
  (difs nw : list (nat * nat)) (dof : nat) (first : R) (colLoc : Z * Z -> R) (xs : Z) (xm : nat).
Notation at_ := (coordsAt star xpos (located first hs) difs nw).
Notation vws := (fun p : Pt => views star (located (colLoc (pty p, ptz p)) hs) difs nw (xpos (ptx p), IZR (pty p) * hy, IZR (ptz p) * hz)%R p).
Notation bs := (blockSize star hs difs nw).
Hypothesis same : forall h, In h hs -> length (clusters h) = nAdvec hs.
(** The first handler is that of the surface, the others are across x. *)
Hypothesis across : match hs with [] => True | h :: r => kind h = Surface /\ forall g, In g r -> kind g = AcrossX end.

Lemma len_star p comp : length (starAt star p comp) = length star.
Proof using. apply map_length. Qed.
Lemma len_pair h q p comp : length (advPair h q p comp) = 2%nat.
Proof using. unfold advPair. destruct (onSink h q); reflexivity. Qed.
Lemma located_same l h : In h (located l hs) -> length (clusters h) = nAdvec hs.
Proof using same. clear across. destruct hs as [|g r]; [intros []|]. intros [<-|H]; [apply (same g); left; reflexivity|apply same; right; exact H]. Qed.
Lemma views_len p n l : In (n, l) (vws p) -> n = length l.
Proof using same.
  unfold views. intros [E|H].
  - inversion E. symmetry. apply len_flat. intros. apply len_star.
  - apply in_app_or in H. destruct H as [H|[E|[]]].
    + apply in_map_iff in H. destruct H as [h [E Hh]]. inversion E. rewrite nAdvec_located.
      rewrite (len_flat _ 2) by (intros; apply len_pair). rewrite (located_same _ _ Hh). reflexivity.
    + inversion E. rewrite map_length. reflexivity.
Qed.
Lemma pair_same h p comp y z : kind h = AcrossX ->
  advPair h (xpos (ptx p), 0%R, 0%R) p comp = advPair h (xpos (ptx p), y, z) p comp.
Proof using. intros K. unfold advPair, onSink, offsets, onSink. rewrite K. reflexivity. Qed.
Lemma pair_surface l l' c q q' p comp : advPair (mkHandler Surface l c) q p comp = advPair (mkHandler Surface l' c) q' p comp.
Proof using. reflexivity. Qed.
Lemma at_views p : at_ p = map Some (concat (map snd (vws p))).
Proof using same across.
  unfold coordsAt, views. cbn [map snd concat]. rewrite !map_app, !concat_app, !map_app. f_equal. f_equal.
  - assert (Hp : forall h, In h (located first hs) -> padding (located first hs) h = []).
    { intros h Hh. unfold padding. rewrite nAdvec_located, (located_same _ _ Hh), Nat.sub_diag. reflexivity. }
    revert Hp. generalize (padding (located first hs)) (nAdvec (located (colLoc (pty p, ptz p)) hs)). intros pad n Hp.
    clear same. destruct hs as [|h r]; [reflexivity|]. destruct across as [Ks Kr].
    cbn [located] in Hp |- *. cbn [flat_map map snd concat clusters]. rewrite map_app. f_equal.
    + rewrite (Hp _ (or_introl eq_refl)), app_nil_r. f_equal. apply flat_map_ext. intros comp. rewrite Ks. apply pair_surface.
    + assert (Hr : forall g, In g r -> pad g = []) by (intros; apply Hp; right; auto). clear Hp across Ks.
      induction r as [|g r IH]; [reflexivity|]. cbn [flat_map map snd concat]. rewrite map_app, <- IH by (intros; auto with datatypes).
      f_equal. rewrite Hr, app_nil_r by (left; reflexivity). f_equal. apply flat_map_ext. intros comp. apply pair_same. apply Kr. left. reflexivity.
  - cbn [map snd concat]. rewrite app_nil_r. reflexivity.
Qed.
Lemma fold_sum (l : list (nat * list Label)) v : (forall n x, In (n, x) l -> n = length x) ->
  fold_left (fun v nl => v + fst nl)%nat l v = (v + length (concat (map snd l)))%nat.
Proof using.
  revert v. induction l as [|[n x] l IH]; intros v H; cbn [fold_left map snd concat fst length]; [lia|].
  rewrite IH by (intros; apply H; right; auto). rewrite app_length, (H n x) by (left; auto). lia.
Qed.
Lemma len_at p : length (at_ p) = bs.
Proof using same across colLoc hy hz.
  rewrite at_views, map_length. unfold blockSize, views. cbn [map snd concat].
  rewrite !app_length, map_app, concat_app, app_length. cbn [map snd concat]. rewrite app_nil_r, map_length.
  rewrite (len_flat _ (length star)) by (intros; apply len_star).
  assert (E : forall q n l, (forall h, In h l -> length (clusters h) = nAdvec hs) ->
     length (concat (map snd (map (fun h => ((2 * n)%nat, flat_map (advPair h q p) (clusters h))) l))) = (2 * nAdvec hs * length l)%nat).
  { intros q n l. induction l as [|h r IH]; intros Hl; cbn [map snd concat length]; [lia|].
    rewrite app_length, IH by (intros; apply Hl; right; auto). rewrite (len_flat _ 2) by (intros; apply len_pair).
    rewrite Hl by (left; auto). lia. }
  rewrite E by (intros; eapply located_same; eauto). rewrite length_located. lia.
Qed.
Lemma stands_main pts : forall pre post,
  stands (pre ++ flat_map at_ pts ++ post) (mainPoints star skip xpos hy hz hs difs nw colLoc (length pre) pts).
Proof using same across.
  induction pts as [|p pts IH]; intros pre post; [intros w []|].
  cbn [mainPoints flat_map]. cbv zeta.
  assert (Hnext : forall ws, stands ((pre ++ at_ p) ++ flat_map at_ pts ++ post) ws ->
                             stands (pre ++ (at_ p ++ flat_map at_ pts) ++ post) ws).
  { intros ws. rewrite <- !app_assoc. auto. }
  assert (Hl : (length pre + bs)%nat = length (pre ++ at_ p)) by (rewrite app_length, len_at; reflexivity).
  destruct (skip p).
  - apply Hnext. rewrite Hl. apply IH.
  - apply stands_app.
    + rewrite at_views, <- app_assoc. apply stands_placeAll. apply views_len.
    + apply Hnext. rewrite fold_sum by apply views_len.
      replace (length pre + length (concat (map snd (vws p))))%nat with (length (pre ++ at_ p))
        by (rewrite app_length, at_views, map_length; reflexivity).
      apply IH.
Qed.

(** ** Temperature *)
Definition inside (p : Pt) : bool := (xs <=? ptx p) && (ptx p <? xs + Z.of_nat xm).
Definition tblock (p : Pt) : list (option Label) := map Some (starAt star p (dof, dof)).
Lemma len_tblock p : length (tblock p) = length star.
Proof using. unfold tblock. rewrite map_length. apply len_star. Qed.
Lemma tempColumn_next pts : forall vi,
  snd (tempColumn star m dof xs xm vi pts) = (vi + length (flat_map tblock (filter inside pts)))%nat.
Proof using.
  induction pts as [|p r IH]; intros vi; [cbn; lia|]. cbn [tempColumn filter snd]. rewrite IH.
  fold (inside p). destruct (inside p); [|reflexivity]. cbn [flat_map]. rewrite app_length, len_tblock. lia.
Qed.
Lemma stands_tempColumn pts : forall pre post,
  stands (pre ++ flat_map tblock (filter inside pts) ++ post) (fst (tempColumn star m dof xs xm (length pre) pts)).
Proof using.
  induction pts as [|p r IH]; intros pre post; [intros w []|]. cbn [tempColumn filter fst]. cbv zeta. fold (inside p).
  destruct (inside p) eqn:I.
  - rewrite andb_true_r. cbn [flat_map].
    assert (B : stands (pre ++ (tblock p ++ flat_map tblock (filter inside r)) ++ post) (place (length pre) (starAt star p (dof, dof)))).
    { rewrite <- app_assoc. apply stands_place. }
    apply stands_app; [apply stands_app|].
    + destruct (ptx p =? _); [exact B|intros w []].
    + destruct (emptyT m p); [intros w []|exact B].
    + replace (length pre + length star)%nat with (length (pre ++ tblock p)) by (rewrite app_length, len_tblock; reflexivity).
      specialize (IH (pre ++ tblock p) post). rewrite <- !app_assoc in *. exact IH.
  - rewrite andb_false_r. destruct (emptyT m p); apply IH.
Qed.
Lemma filter_column yz : filter inside (column (xs - 1) (xm + 2) yz) = column xs xm yz.
Proof using.
  unfold column, zseq. rewrite !map_map.
  assert (L : seq 0 (xm + 2) = 0%nat :: map S (seq 0 xm) ++ [S xm]).
  { replace (xm + 2)%nat with (S (xm + 1)) by lia. cbn [seq]. rewrite seq_app, <- seq_shift. cbn [seq]. reflexivity. }
  rewrite L. cbn [map]. rewrite map_app, map_map. cbn [map].
  assert (E0 : inside (xs - 1 + Z.of_nat 0, fst yz, snd yz) = false).
  { unfold inside, ptx. cbn [fst]. rewrite andb_false_iff. left. apply Z.leb_gt. lia. }
  assert (E1 : inside (xs - 1 + Z.of_nat (S xm), fst yz, snd yz) = false).
  { unfold inside, ptx. cbn [fst]. rewrite andb_false_iff. right. apply Z.ltb_ge. lia. }
  cbn [filter]. rewrite E0, filter_app. cbn [filter]. rewrite E1, app_nil_r.
  assert (F : forall n, (n <= xm)%nat -> filter inside (map (fun x => (xs - 1 + Z.of_nat (S x), fst yz, snd yz)) (seq 0 n)) =
    map (fun x => (xs + Z.of_nat x, fst yz, snd yz)) (seq 0 n)).
  { induction n as [|n IH]; intros Hn; [reflexivity|]. rewrite seq_S, !map_app, filter_app. f_equal; [apply IH; lia|]. cbn [map filter].
    replace (inside (xs - 1 + Z.of_nat (S (0 + n)), fst yz, snd yz)) with true.
    - replace (xs - 1 + Z.of_nat (S (0 + n))) with (xs + Z.of_nat (0 + n)) by lia. reflexivity.
    - symmetry. unfold inside, ptx. cbn [fst]. rewrite andb_true_iff, Z.leb_le, Z.ltb_lt. lia. }
  apply F. lia.
Qed.
Lemma tempColumns_next cols : forall vi,
  snd (tempColumns star m dof xs xm vi cols) = (vi + length (flat_map tblock (flat_map (column xs xm) cols)))%nat.
Proof using.
  induction cols as [|yz r IH]; intros vi; [cbn; lia|]. cbn [tempColumns snd flat_map]. rewrite IH, tempColumn_next, filter_column.
  rewrite flat_map_app, app_length. lia.
Qed.
Lemma stands_tempColumns cols : forall pre post,
  stands (pre ++ flat_map tblock (flat_map (column xs xm) cols) ++ post) (fst (tempColumns star m dof xs xm (length pre) cols)).
Proof using.
  induction cols as [|yz r IH]; intros pre post; [intros w []|]. cbn [tempColumns fst flat_map]. rewrite flat_map_app, <- app_assoc. apply stands_app.
  - rewrite <- (filter_column yz). apply stands_tempColumn.
  - rewrite tempColumn_next, filter_column.
    replace (length pre + length (flat_map tblock (column xs xm yz)))%nat with (length (pre ++ flat_map tblock (column xs xm yz))) by apply app_length.
    specialize (IH (pre ++ flat_map tblock (column xs xm yz)) post). rewrite <- app_assoc in IH. exact IH.
Qed.
Lemma stands_writes cols :
  stands (coords star xpos hs difs nw dof first (flat_map (column xs xm) cols))
         (writes star m skip xpos hy hz hs difs nw dof colLoc xs xm cols).
Proof using same across.
  unfold writes, coords. cbv zeta. apply stands_app.
  - apply (stands_tempColumns cols [] _).
  - rewrite tempColumns_next. cbn [Nat.add].
    rewrite <- (app_nil_r (flat_map at_ _)). apply stands_main.
Qed.
End STREAM.
(** ** Positions *)
(** Every cell of the array between two indices is given a value at most once. *)
Definition once (a b : nat) (ws : Writes) : Prop := NoDup (map fst ws) /\ forall w, In w ws -> (a <= fst w < b)%nat.
Lemma NoDup_app {A} (l k : list A) : NoDup l -> NoDup k -> (forall x, In x l -> ~ In x k) -> NoDup (l ++ k).
Proof.
  induction l as [|x l IH]; intros Hl Hk H; [exact Hk|]. inversion Hl; subst. cbn [app]. constructor.
  - rewrite in_app_iff. intros [G|G]; [contradiction|]. apply (H x); [left; reflexivity|exact G].
  - apply IH; auto. intros y Hy. apply H. right. exact Hy.
Qed.
Lemma once_app a b c u v : (a <= b)%nat -> (b <= c)%nat -> once a b u -> once b c v -> once a c (u ++ v).
Proof.
  intros Hab Hbc [Nu Bu] [Nv Bv]. split.
  - rewrite map_app. apply NoDup_app; auto. intros x Hx Hy. apply in_map_iff in Hx as (w & <- & Hw). apply in_map_iff in Hy as (w' & E & Hw').
    specialize (Bu w Hw). specialize (Bv w' Hw'). lia.
  - intros w Hw. apply in_app_or in Hw. destruct Hw as [Hw|Hw]; [specialize (Bu w Hw)|specialize (Bv w Hw)]; lia.
Qed.
Lemma once_nil a b : once a b []. Proof. split; [constructor|intros w []]. Qed.
Lemma once_place vi l n : (length l <= n)%nat -> once vi (vi + n) (place vi l).
Proof.
  intros H. unfold place. assert (E : map fst (combine (seq vi (length l)) l) = seq vi (length l)).
  { clear H. revert vi. induction l as [|x l IH]; intros vi; [reflexivity|]. cbn [length seq combine map fst]. rewrite IH. reflexivity. }
  split; [rewrite E; apply seq_NoDup|]. intros w Hw. apply (in_map fst) in Hw. rewrite E in Hw. apply in_seq in Hw. lia.
Qed.
Lemma fold_plus (vs : list (nat * list Label)) : forall vi, fold_left (fun v nl => v + fst nl)%nat vs vi = (vi + fold_left (fun v nl => v + fst nl)%nat vs 0)%nat.
Proof.
  induction vs as [|x vs IH]; intros vi; cbn [fold_left]; [lia|]. rewrite IH, (IH (0 + fst x)%nat). lia.
Qed.
Lemma once_placeAll vs : forall vi, (forall n l, In (n, l) vs -> (length l <= n)%nat) ->
  once vi (fold_left (fun v nl => v + fst nl)%nat vs vi) (placeAll vi vs).
Proof.
  induction vs as [|[n l] vs IH]; intros vi H; [apply once_nil|]. cbn [placeAll fold_left fst].
  apply once_app with (vi + n)%nat; [lia|rewrite fold_plus; lia| |].
  - apply once_place. apply H. left. reflexivity.
  - apply IH. intros n' l' Hn. apply H. right. exact Hn.
Qed.
Lemma fold_max_le l : forall a x, (In x l \/ (x <= a)%nat) -> (x <= fold_left Nat.max l a)%nat.
Proof.
  induction l as [|y l IH]; intros a x H; cbn [fold_left]; [destruct H; [contradiction|auto]|].
  apply IH. destruct H as [[->|H]|H]; [right; lia|left; auto|right; lia].
Qed.
Lemma clusters_le hs h : In h hs -> (length (clusters h) <= nAdvec hs)%nat.
Proof. intros H. apply fold_max_le. left. apply (in_map (fun h => length (clusters h))). exact H. Qed.
Lemma views_le star hs difs nw q p n l : In (n, l) (views star hs difs nw q p) -> (length l <= n)%nat.
Proof.
  unfold views. intros [E|H].
  - inversion E. rewrite (len_flat _ (length star)) by (intros; apply map_length). lia.
  - apply in_app_or in H. destruct H as [H|[E|[]]].
    + apply in_map_iff in H as (h & E & Hh). inversion E. rewrite (len_flat _ 2) by (intros; apply len_pair).
      pose proof (clusters_le hs h Hh). lia.
    + inversion E. rewrite map_length. lia.
Qed.
Lemma once_main star skip xpos hy hz hs difs nw colLoc pts : forall vi, exists b, (vi <= b)%nat /\
  once vi b (mainPoints star skip xpos hy hz hs difs nw colLoc vi pts).
Proof.
  induction pts as [|p r IH]; intros vi; [exists vi; split; [lia|apply once_nil]|]. cbn [mainPoints]. cbv zeta. destruct (skip p).
  - destruct (IH (vi + blockSize star hs difs nw)%nat) as (b & Hb & N & B). exists b. split; [lia|]. split; [exact N|].
    intros w Hw. specialize (B w Hw). lia.
  - match goal with |- context [placeAll vi ?vs] => destruct (IH (fold_left (fun v nl => v + fst nl)%nat vs vi)) as (b & Hb & O); exists b;
      pose proof (once_placeAll vs vi (views_le _ _ _ _ _ _)) as P; pose proof (fold_plus vs vi) end.
    split; [lia|]. eapply once_app; [| |exact P|exact O]; lia.
Qed.
Lemma once_tempColumn star m dof xs xm pts : (1 <= leftO m) -> forall vi,
  once vi (snd (tempColumn star m dof xs xm vi pts)) (fst (tempColumn star m dof xs xm vi pts)) /\
  (vi <= snd (tempColumn star m dof xs xm vi pts))%nat.
Proof.
  intros HL. induction pts as [|p r IH]; intros vi; [split; [apply once_nil|cbn; lia]|]. cbn [tempColumn fst snd]. cbv zeta.
  set (owned := (xs <=? ptx p) && (ptx p <? xs + Z.of_nat xm)).
  destruct (IH (if owned then (vi + length star)%nat else vi)) as [O B]. destruct owned.
  - split; [|lia]. apply once_app with (vi + length star)%nat; [lia|lia| |exact O].
    assert (P : once vi (vi + length star) (place vi (starAt star p (dof, dof)))) by (apply once_place; rewrite len_star; lia).
    rewrite andb_true_r. destruct (Z.eqb_spec (ptx p) (surf m (pty p, ptz p))) as [E|E].
    + replace (emptyT m p) with true; [rewrite app_nil_r; exact P|]. symmetry. unfold emptyT. rewrite E.
      replace (surf m (pty p, ptz p) <? surf m (pty p, ptz p) + leftO m) with true by (symmetry; apply Z.ltb_lt; lia). reflexivity.
    + destruct (emptyT m p); [apply once_nil|exact P].
  - rewrite andb_false_r. destruct (emptyT m p); cbn [app]; split; auto.
Qed.
Lemma once_tempColumns star m dof xs xm cols : (1 <= leftO m) -> forall vi,
  once vi (snd (tempColumns star m dof xs xm vi cols)) (fst (tempColumns star m dof xs xm vi cols)) /\
  (vi <= snd (tempColumns star m dof xs xm vi cols))%nat.
Proof.
  intros HL. induction cols as [|yz r IH]; intros vi; [split; [apply once_nil|cbn; lia]|]. cbn [tempColumns fst snd]. cbv zeta.
  destruct (once_tempColumn star m dof xs xm (column (xs - 1) (xm + 2) yz) HL vi) as [O B].
  match goal with |- context [tempColumns _ _ _ _ _ ?v r] => destruct (IH v) as [O' B'] end.
  split; [|lia]. eapply once_app; [| |exact O|exact O']; lia.
Qed.
Lemma once_writes star m skip xpos hy hz hs difs nw dof colLoc xs xm cols : 1 <= leftO m ->
  NoDup (map fst (writes star m skip xpos hy hz hs difs nw dof colLoc xs xm cols)).
Proof.
  intros HL. unfold writes. cbv zeta. destruct (once_tempColumns star m dof xs xm cols HL 0) as [O B].
  match goal with |- context [mainPoints _ _ _ _ _ _ _ _ _ ?v ?p] =>
    destruct (once_main star skip xpos hy hz hs difs nw colLoc p v) as (b & Hb & O') end.
  eapply once_app; [| |exact O|exact O']; lia.
Qed.

(** ** Which entries are given values *)
Lemma in_place vi l e : (exists k, In (k, e) (place vi l)) <-> In e l.
Proof.
  unfold place. revert vi. induction l as [|x l IH]; intros vi; [cbn; firstorder|]. cbn [length seq combine In]. rewrite <- (IH (S vi)). split.
  - intros (k & [E|H]); [left; congruence|right; eauto].
  - intros [->|(k & H)]; eauto.
Qed.
Lemma ex_app (u v : Writes) e : (exists k, In (k, e) (u ++ v)) <-> (exists k, In (k, e) u) \/ (exists k, In (k, e) v).
Proof. setoid_rewrite in_app_iff. firstorder. Qed.
Lemma in_placeAll vs : forall vi e, (exists k, In (k, e) (placeAll vi vs)) <-> exists n l, In (n, l) vs /\ In e l.
Proof.
  induction vs as [|[n l] vs IH]; intros vi e; [cbn; firstorder|]. cbn [placeAll]. rewrite ex_app, IH, in_place. cbn [In]. split.
  - intros [H|(n' & l' & H & G)]; eauto 6.
  - intros (n' & l' & [E|H] & G); [inversion E; subst; auto|eauto 6].
Qed.
Lemma in_main star skip xpos hy hz hs difs nw colLoc pts : forall vi e,
  (exists k, In (k, e) (mainPoints star skip xpos hy hz hs difs nw colLoc vi pts)) <->
  exists p, In p pts /\ skip p = false /\ exists n l,
    In (n, l) (views star (located (colLoc (pty p, ptz p)) hs) difs nw (xpos (ptx p), IZR (pty p) * hy, IZR (ptz p) * hz)%R p) /\ In e l.
Proof.
  induction pts as [|p r IH]; intros vi e; [cbn; firstorder|]. cbn [mainPoints]. cbv zeta. destruct (skip p) eqn:S.
  - rewrite IH. cbn [In]. split.
    + intros (p' & H & G). exists p'. auto.
    + intros (p' & [->|H] & G & K); [congruence|exists p'; auto].
  - rewrite ex_app, IH, in_placeAll. cbn [In]. split.
    + intros [H|(p' & H & G)]; [exists p|exists p']; auto.
    + intros (p' & [->|H] & G & K); [left; exact K|right; exists p'; auto].
Qed.
Lemma in_tempColumn star m dof xs xm pts : forall vi e,
  (exists k, In (k, e) (fst (tempColumn star m dof xs xm vi pts))) <->
  exists p, In p pts /\ inside xs xm p = true /\ (ptx p = surf m (pty p, ptz p) \/ emptyT m p = false) /\ In e (starAt star p (dof, dof)).
Proof.
  induction pts as [|p r IH]; intros vi e; [cbn; firstorder|]. cbn [tempColumn fst]. cbv zeta. fold (inside xs xm p).
  rewrite !ex_app, IH. cbn [In].
  assert (N : forall e : Label, ~ exists k : nat, In (k, e) ([] : Writes)) by (intros ? (k & [])).
  destruct (inside xs xm p) eqn:I.
  - rewrite andb_true_r. split.
    + intros [[H|H]|(p' & H & G)]; [| |exists p'; auto].
      * destruct (Z.eqb_spec (ptx p) (surf m (pty p, ptz p))); [|destruct (N _ H)]. apply in_place in H. exists p. auto 6.
      * destruct (emptyT m p) eqn:E; [destruct (N _ H)|]. apply in_place in H. exists p. auto 6.
    + intros (p' & [<-|H] & G & K & L); [left|right; exists p'; auto]. destruct K as [K|K].
      * left. rewrite (proj2 (Z.eqb_eq _ _) K). apply in_place. exact L.
      * right. rewrite K. apply in_place. exact L.
  - rewrite andb_false_r. split.
    + intros [[H|H]|(p' & H & G)]; [destruct (N _ H)| |exists p'; auto]. destruct (emptyT m p); destruct (N _ H).
    + intros (p' & [<-|H] & G & K); [congruence|right; exists p'; auto].
Qed.
Lemma in_tempColumns star m dof xs xm cols : forall vi e,
  (exists k, In (k, e) (fst (tempColumns star m dof xs xm vi cols))) <->
  exists p, In p (flat_map (column xs xm) cols) /\ (ptx p = surf m (pty p, ptz p) \/ emptyT m p = false) /\ In e (starAt star p (dof, dof)).
Proof.
  induction cols as [|yz r IH]; intros vi e; [cbn; firstorder|]. cbn [tempColumns fst flat_map]. cbv zeta.
  rewrite ex_app, IH, in_tempColumn. split.
  - intros [(p & H & I & K)|(p & H & K)]; exists p; rewrite in_app_iff; split; auto.
    left. rewrite <- filter_column. apply filter_In. auto.
  - intros (p & H & K). rewrite in_app_iff in H. destruct H as [H|H]; [left|right; eauto].
    rewrite <- filter_column in H. apply filter_In in H as [H1 H2]. exists p. auto.
Qed.
(** ** The properties *)

(** The points of a process, the excluded ones and the neighbours, in words. *)
Definition ownsPlane (xs : Z) (xm : nat) (ys : Z) (ym : nat) (p : Pt) : Prop :=
  exists x y, p = (x, y, 0) /\ xs <= x < xs + Z.of_nat xm /\ ys <= y < ys + Z.of_nat ym.
Definition ownsSpace (xs : Z) (xm : nat) (ys : Z) (ym : nat) (zs : Z) (zm : nat) (p : Pt) : Prop :=
  exists x y z, p = (x, y, z) /\ xs <= x < xs + Z.of_nat xm /\ ys <= y < ys + Z.of_nat ym /\ zs <= z < zs + Z.of_nat zm.
Definition beside (p q : Pt) : Prop :=
  match p with (x, y, z) => q = (x, y, z) \/ q = (x - 1, y, z) \/ q = (x + 1, y, z) \/ q = (x, y - 1, z) \/ q = (x, y + 1, z) end.
Definition beside3 (p q : Pt) : Prop :=
  beside p q \/ match p with (x, y, z) => q = (x, y, z - 1) \/ q = (x, y, z + 1) end.
Definition emptyX (m : Mesh) (p : Pt) : Prop :=
  match p with (x, y, z) => x < surf m (y, z) + leftO m \/ nX m - 1 - rightO m < x end \/ In p (gb m).
Definition emptyPlane (m : Mesh) (p : Pt) : Prop :=
  emptyX m p \/ match p with (x, y, z) => y < bottomO m \/ nY m - 1 - topO m < y end.
Definition emptySpace (m : Mesh) (p : Pt) : Prop :=
  emptyPlane m p \/ match p with (x, y, z) => z < frontO m \/ nZ m - 1 - backO m < z end.

Lemma in_zseq s n z : In z (zseq s n) <-> s <= z < s + Z.of_nat n.
Proof.
  unfold zseq. rewrite in_map_iff. split.
  - intros (i & <- & H). apply in_seq in H. lia.
  - intros H. exists (Z.to_nat (z - s)). rewrite in_seq. lia.
Qed.
Lemma in_column xs xm yz p : In p (column xs xm yz) <-> exists x, p = (x, fst yz, snd yz) /\ xs <= x < xs + Z.of_nat xm.
Proof.
  unfold column. rewrite in_map_iff. setoid_rewrite in_zseq. split; intros (x & E & H); exists x; auto.
Qed.
Lemma in_plane xs xm ys ym p : In p (flat_map (column xs xm) (columns2 ys ym)) <-> ownsPlane xs xm ys ym p.
Proof.
  rewrite in_flat_map. unfold columns2, ownsPlane. split.
  - intros (yz & H & C). apply in_map_iff in H as (y & <- & Hy). apply in_zseq in Hy. apply in_column in C as (x & -> & Hx). exists x, y. auto.
  - intros (x & y & -> & Hx & Hy). exists (y, 0). split; [apply in_map_iff; exists y; rewrite in_zseq; auto|]. apply in_column. exists x. auto.
Qed.
Lemma in_space xs xm ys ym zs zm p : In p (flat_map (column xs xm) (columns3 ys ym zs zm)) <-> ownsSpace xs xm ys ym zs zm p.
Proof.
  rewrite in_flat_map. unfold columns3, ownsSpace. split.
  - intros (yz & H & C). apply in_flat_map in H as (z & Hz & H). apply in_map_iff in H as (y & <- & Hy). apply in_zseq in Hy. apply in_zseq in Hz.
    apply in_column in C as (x & -> & Hx). exists x, y, z. auto.
  - intros (x & y & z & -> & Hx & Hy & Hz). exists (y, z). split; [|apply in_column; exists x; auto].
    apply in_flat_map. exists z. rewrite in_zseq. split; [auto|]. apply in_map_iff. exists y. rewrite in_zseq. auto.
Qed.
Lemma in_star2 p comp e : In e (starAt star2 p comp) <-> exists q, beside p q /\ e = ((p, fst comp), (q, snd comp)).
Proof.
  destruct p as [[x y] z]. unfold starAt, star2, entry, shift, beside, ptx, pty, ptz. cbn [map In fst snd].
  rewrite !Z.add_0_r. replace (x + -1) with (x - 1) by lia. replace (y + -1) with (y - 1) by lia. split.
  - intros [<-|[<-|[<-|[<-|[<-|[]]]]]]; eexists; (split; [|reflexivity]); auto 6.
  - intros (q & [->|[->|[->|[->| ->]]]] & ->); auto 6.
Qed.
Lemma in_star3 p comp e : In e (starAt star3 p comp) <-> exists q, beside3 p q /\ e = ((p, fst comp), (q, snd comp)).
Proof.
  destruct p as [[x y] z]. unfold starAt, star3, entry, shift, beside3, beside, ptx, pty, ptz. cbn [map In fst snd].
  rewrite !Z.add_0_r. replace (x + -1) with (x - 1) by lia. replace (y + -1) with (y - 1) by lia. replace (z + -1) with (z - 1) by lia. split.
  - intros [<-|[<-|[<-|[<-|[<-|[<-|[<-|[]]]]]]]]; eexists; (split; [|reflexivity]); auto 8.
  - intros (q & [[->|[->|[->|[->| ->]]]]|[->| ->]] & ->); auto 9.
Qed.
Lemma gb_spec p l : existsb (pteq p) l = true <-> In p l.
Proof.
  rewrite existsb_exists. split.
  - intros (q & H & E). apply pteq_spec in E. subst. exact H.
  - intros H. exists p. split; [exact H|]. apply pteq_spec. reflexivity.
Qed.
Lemma emptyT_spec m p : emptyT m p = true <-> emptyX m p.
Proof.
  destruct p as [[x y] z]. unfold emptyT, emptyX, ptx, pty, ptz. cbn [fst snd]. rewrite !orb_true_iff, gb_spec, !Z.ltb_lt. tauto.
Qed.
Lemma empty2_spec m p : empty2 m p = true <-> emptyPlane m p.
Proof.
  destruct p as [[x y] z]. unfold empty2, emptyPlane, emptyX, ptx, pty, ptz. cbn [fst snd]. rewrite !orb_true_iff, gb_spec, !Z.ltb_lt. tauto.
Qed.
Lemma empty3_spec m p : empty3 m p = true <-> emptySpace m p.
Proof.
  destruct p as [[x y] z]. unfold empty3, emptySpace, emptyPlane, emptyX, ptx, pty, ptz. cbn [fst snd]. rewrite !orb_true_iff, gb_spec, !Z.ltb_lt. tauto.
Qed.
Lemma not_true b (P : Prop) : (b = true <-> P) -> (b = false <-> ~ P).
Proof. intros H. destruct b; intuition congruence. Qed.

(** Without grain boundaries, on every process and for every shape of the surface: the assembled
    matrix is, entry by entry, the sum of the values computed for this entry. *)
Definition surfaceOnly (l : R) (cl : list (nat * nat)) : list Handler := [mkHandler Surface l cl].
Lemma nAdvec_surface l cl : nAdvec (surfaceOnly l cl) = length cl.
Proof. reflexivity. Qed.
Theorem c81_plane m xpos hy hz l cl difs nw dof first colLoc xs xm ys ym (ws : list ((nat * Label) * R)) e :
  map fst ws = writes star2 m (empty2 m) xpos hy hz (surfaceOnly l cl) difs nw dof colLoc xs xm (columns2 ys ym) ->
  assembled (coords star2 xpos (surfaceOnly l cl) difs nw dof first (flat_map (column xs xm) (columns2 ys ym))) ws e =
  Rsum ws (fun w => if labEq (snd (fst w)) e then snd w else 0%R).
Proof.
  intros E. apply assembled_spec. intros w Hw.
  refine (stands_writes star2 m (empty2 m) xpos hy hz (surfaceOnly l cl) difs nw dof first colLoc xs xm _ _ (columns2 ys ym) (fst w) _).
  - intros h [<-|[]]. reflexivity.
  - split; [reflexivity|intros g []].
  - rewrite <- E. apply in_map. exact Hw.
Qed.
Theorem c81_space m xpos hy hz l cl difs nw dof first colLoc xs xm ys ym zs zm (ws : list ((nat * Label) * R)) e :
  map fst ws = writes star3 m (empty3 m) xpos hy hz (surfaceOnly l cl) difs nw dof colLoc xs xm (columns3 ys ym zs zm) ->
  assembled (coords star3 xpos (surfaceOnly l cl) difs nw dof first (flat_map (column xs xm) (columns3 ys ym zs zm))) ws e =
  Rsum ws (fun w => if labEq (snd (fst w)) e then snd w else 0%R).
Proof.
  intros E. apply assembled_spec. intros w Hw.
  refine (stands_writes star3 m (empty3 m) xpos hy hz (surfaceOnly l cl) difs nw dof first colLoc xs xm _ _ (columns3 ys ym zs zm) (fst w) _).
  - intros h [<-|[]]. reflexivity.
  - split; [reflexivity|intros g []].
  - rewrite <- E. apply in_map. exact Hw.
Qed.
(** With grain boundaries across x which trap as many clusters as the surface. *)
Theorem c81_handlers_partial star m skip xpos hy hz h r difs nw dof first colLoc xs xm cols (ws : list ((nat * Label) * R)) e :
  kind h = Surface -> (forall g, In g r -> kind g = AcrossX /\ length (clusters g) = length (clusters h)) ->
  map fst ws = writes star m skip xpos hy hz (h :: r) difs nw dof colLoc xs xm cols ->
  assembled (coords star xpos (h :: r) difs nw dof first (flat_map (column xs xm) cols)) ws e =
  Rsum ws (fun w => if labEq (snd (fst w)) e then snd w else 0%R).
Proof.
  intros K Hr E. apply assembled_spec. intros w Hw.
  assert (N : nAdvec (h :: r) = length (clusters h)).
  { unfold nAdvec. cbn [map fold_left]. rewrite Nat.max_0_l. clear E. induction r as [|g r IH]; [reflexivity|]. cbn [map fold_left].
    rewrite (proj2 (Hr g (or_introl eq_refl))), Nat.max_id. apply IH. intros; apply Hr; right; auto. }
  refine (stands_writes star m skip xpos hy hz (h :: r) difs nw dof first colLoc xs xm _ _ cols (fst w) _).
  - rewrite N. intros g [<-|Hg]; [reflexivity|apply Hr; exact Hg].
  - split; [exact K|intros g Hg; apply Hr; exact Hg].
  - rewrite <- E. apply in_map. exact Hw.
Qed.
(** No cell of the array is given two values (one empty layer at the surface). *)
Theorem c81_once star m skip xpos hy hz hs difs nw dof colLoc xs xm cols : 1 <= leftO m ->
  NoDup (map fst (writes star m skip xpos hy hz hs difs nw dof colLoc xs xm cols)).
Proof. apply once_writes. Qed.

(** Which entries are given values. *)
Definition surfaceEntries (p : Pt) (comp : nat * nat) (e : Label) : Prop :=
  match p with (x, y, z) => e = ((p, fst comp), (p, snd comp)) \/ e = ((p, fst comp), ((x + 1, y, z), snd comp)) end.
Lemma in_surface l cl p q e : In e (flat_map (advPair (mkHandler Surface l cl) q p) cl) <-> exists comp, In comp cl /\ surfaceEntries p comp e.
Proof.
  rewrite in_flat_map. destruct p as [[x y] z]. unfold advPair, onSink, offsets, surfaceEntries, entry, shift, ptx, pty, ptz. cbn [kind fst snd In].
  rewrite !Z.add_0_r. split; intros (comp & H & G); exists comp; (split; [exact H|]).
  - destruct G as [G|[G|[]]]; [left|right]; symmetry; exact G.
  - destruct G as [G|G]; [left|right; left]; symmetry; exact G.
Qed.
Lemma in_views star nb l cl difs nw q p e :
  (forall comp e, In e (starAt star p comp) <-> exists q, nb p q /\ e = ((p, fst comp), (q, snd comp))) ->
  (exists n x, In (n, x) (views star (surfaceOnly l cl) difs nw q p) /\ In e x) <->
  (exists comp q, In comp difs /\ nb p q /\ e = ((p, fst comp), (q, snd comp))) \/
  (exists comp, In comp cl /\ surfaceEntries p comp e) \/
  (exists comp, In comp nw /\ e = ((p, fst comp), (p, snd comp))).
Proof.
  intros Hs. unfold views, surfaceOnly. cbn [map app In clusters]. split.
  - intros (n & x & [E|[E|[E|[]]]] & H); injection E as <- <-.
    + left. apply in_flat_map in H as (comp & H & G). apply Hs in G as (q' & B & ->). eauto.
    + right. left. apply in_surface in H. exact H.
    + right. right. apply in_map_iff in H as (comp & <- & H). exists comp. auto.
  - intros [(comp & q' & H & B & ->)|[H|(comp & H & ->)]].
    + do 2 eexists. split; [left; reflexivity|]. apply in_flat_map. exists comp. split; [exact H|]. apply Hs. eauto.
    + do 2 eexists. split; [right; left; reflexivity|]. apply in_surface. exact H.
    + do 2 eexists. split; [right; right; left; reflexivity|]. apply in_map_iff. exists comp. auto.
Qed.
Theorem c81_plane_values m xpos hy hz l cl difs nw dof colLoc xs xm ys ym e :
  (exists k, In (k, e) (writes star2 m (empty2 m) xpos hy hz (surfaceOnly l cl) difs nw dof colLoc xs xm (columns2 ys ym))) <->
  exists p, ownsPlane xs xm ys ym p /\
   (((ptx p = surf m (pty p, ptz p) \/ ~ emptyX m p) /\ exists q, beside p q /\ e = ((p, dof), (q, dof))) \/
    (~ emptyPlane m p /\
      ((exists comp q, In comp difs /\ beside p q /\ e = ((p, fst comp), (q, snd comp))) \/
       (exists comp, In comp cl /\ surfaceEntries p comp e) \/
       (exists comp, In comp nw /\ e = ((p, fst comp), (p, snd comp)))))).
Proof.
  unfold writes. cbv zeta. rewrite ex_app, in_tempColumns, in_main. setoid_rewrite in_plane.
  setoid_rewrite (not_true _ _ (emptyT_spec m _)). setoid_rewrite (not_true _ _ (empty2_spec m _)). setoid_rewrite in_star2. cbn [fst snd].
  unfold surfaceOnly. cbn [located kind clusters].
  split.
  - intros [(p & O & K & q & B & E)|(p & O & S & H)]; exists p; (split; [exact O|]); [left; eauto|right; split; [exact S|]].
    apply (in_views star2 beside) in H; [exact H|intros; apply in_star2].
  - intros (p & O & [(K & q & B & E)|(S & H)]); [left; exists p; eauto 8|right; exists p]. split; [exact O|]. split; [exact S|].
    apply (in_views star2 beside); [intros; apply in_star2|exact H].
Qed.
Theorem c81_space_values m xpos hy hz l cl difs nw dof colLoc xs xm ys ym zs zm e :
  (exists k, In (k, e) (writes star3 m (empty3 m) xpos hy hz (surfaceOnly l cl) difs nw dof colLoc xs xm (columns3 ys ym zs zm))) <->
  exists p, ownsSpace xs xm ys ym zs zm p /\
   (((ptx p = surf m (pty p, ptz p) \/ ~ emptyX m p) /\ exists q, beside3 p q /\ e = ((p, dof), (q, dof))) \/
    (~ emptySpace m p /\
      ((exists comp q, In comp difs /\ beside3 p q /\ e = ((p, fst comp), (q, snd comp))) \/
       (exists comp, In comp cl /\ surfaceEntries p comp e) \/
       (exists comp, In comp nw /\ e = ((p, fst comp), (p, snd comp)))))).
Proof.
  unfold writes. cbv zeta. rewrite ex_app, in_tempColumns, in_main. setoid_rewrite in_space.
  setoid_rewrite (not_true _ _ (emptyT_spec m _)). setoid_rewrite (not_true _ _ (empty3_spec m _)). setoid_rewrite in_star3. cbn [fst snd].
  unfold surfaceOnly. cbn [located kind clusters].
  split.
  - intros [(p & O & K & q & B & E)|(p & O & S & H)]; exists p; (split; [exact O|]); [left; eauto|right; split; [exact S|]].
    apply (in_views star3 beside3) in H; [exact H|intros; apply in_star3].
  - intros (p & O & [(K & q & B & E)|(S & H)]); [left; exists p; eauto 8|right; exists p]. split; [exact O|]. split; [exact S|].
    apply (in_views star3 beside3); [intros; apply in_star3|exact H].
Qed.
(** A run: two columns, the surface of the second one lies one point deeper; two diffusing
    clusters, one of them advecting, three reaction entries. *)
Definition meshA := mkMesh 5 2 1 1 1 0 0 0 0 (fun yz => if (fst yz =? 1) then 1 else 0) [].
Definition writesA := writes star2 meshA (empty2 meshA) IZR 1 1 (surfaceOnly 0 [(0, 0)%nat]) [(0, 0); (1, 1)]%nat
  [(0, 0); (0, 1); (1, 1)]%nat 2 (fun yz => IZR (fst yz)) 0 5 (columns2 0 2).
Example c81_plane_ok : length writesA = (5 * 7 + 15 * 5)%nat /\ exists ws : list ((nat * Label) * R), map fst ws = writesA.
Proof. split; [reflexivity|]. exists (map (fun w => (w, 1%R)) writesA). rewrite map_map. cbn [fst]. apply map_id. Qed.
Definition meshB := mkMesh 3 2 2 1 0 0 0 0 1 (fun _ => 0) [(2, 1, 0)].
Example c81_space_ok : length (writes star3 meshB (empty3 meshB) IZR 1 1 (surfaceOnly 0 []) [(0, 0)%nat] [(0, 0)%nat] 1
  (fun _ => 0%R) 0 3 (columns3 0 2 0 2)) = (7 * 11 + 8 * 3)%nat.
Proof. reflexivity. Qed.
Example c81_once_ok : 1 <= leftO meshA /\ ~ emptyPlane meshA (2, 1, 0) /\ emptyPlane meshA (1, 1, 0) /\ ownsPlane 0 5 0 2 (2, 1, 0).
Proof.
  unfold emptyPlane, emptyX, meshA. cbn [leftO surf gb In nX rightO bottomO nY topO fst]. rewrite Z.eqb_refl. split; [lia|]. split; [lia|]. split; [lia|].
  exists 2, 1. split; [reflexivity|lia].
Qed.

(** The two points of a handler: on a grain boundary the ones on both sides, else the point
    itself and the next one away from the boundary. *)
Definition stepTo (k : Kind) (p : Pt) (d : Z) : Pt :=
  match p, k with (x, y, z), AcrossY => (x, y + d, z) | (x, y, z), AcrossZ => (x, y, z + d) | (x, y, z), _ => (x + d, y, z) end.
Definition place3 (k : Kind) (q : R * R * R) : R := match q, k with (x, y, z), AcrossY => y | (x, y, z), AcrossZ => z | (x, y, z), _ => x end.
Theorem c81_pair k l cl q p comp : k <> Surface ->
  let pair := advPair (mkHandler k l cl) q p comp in
  ((Rabs (l - place3 k q) < 1 / 1000)%R ->
     pair = [((p, fst comp), (stepTo k p (-1), snd comp)); ((p, fst comp), (stepTo k p 1, snd comp))]) /\
  ((l + 1 / 1000 <= place3 k q)%R -> pair = [((p, fst comp), (p, snd comp)); ((p, fst comp), (stepTo k p 1, snd comp))]) /\
  ((place3 k q <= l - 1 / 1000)%R -> pair = [((p, fst comp), (p, snd comp)); ((p, fst comp), (stepTo k p (-1), snd comp))]).
Proof.
  intros K. destruct q as [[a b] c], p as [[x y] z].
  assert (O : forall v, (Rabs (l - v) < 1 / 1000)%R -> exists H, Rlt_dec (Rabs (l - v)) (1 / 1000) = left H).
  { intros v H. destruct (Rlt_dec (Rabs (l - v)) (1 / 1000)); [eauto|contradiction]. }
  assert (A : forall v, (l + 1 / 1000 <= v)%R -> (exists H, Rlt_dec (Rabs (l - v)) (1 / 1000) = right H) /\ gt01 v l = 1 /\ gt01 l v = 0).
  { intros v H. unfold gt01. destruct (Rlt_dec (Rabs (l - v)) (1 / 1000)) as [G|G]; [exfalso; clear O; rewrite Rabs_left in G by lra; lra|].
    destruct (Rlt_dec l v); [|lra]. destruct (Rlt_dec v l); [lra|]. eauto. }
  assert (B : forall v, (v <= l - 1 / 1000)%R -> (exists H, Rlt_dec (Rabs (l - v)) (1 / 1000) = right H) /\ gt01 v l = 0 /\ gt01 l v = 1).
  { intros v H. unfold gt01. destruct (Rlt_dec (Rabs (l - v)) (1 / 1000)) as [G|G]; [exfalso; clear O A; rewrite Rabs_right in G by lra; lra|].
    destruct (Rlt_dec l v); [lra|]. destruct (Rlt_dec v l); [|lra]. eauto. }
  cbv zeta. destruct k; [contradiction| | |]; unfold advPair, offsets, onSink, entry, shift, back, ptx, pty, ptz, stepTo, place3;
    cbn [kind loc along fst snd]; (split; [|split]); intros H;
    [destruct (O _ H) as (h & ->)|destruct (A _ H) as ((h & ->) & -> & ->)|destruct (B _ H) as ((h & ->) & -> & ->)
    |destruct (O _ H) as (h & ->)|destruct (A _ H) as ((h & ->) & -> & ->)|destruct (B _ H) as ((h & ->) & -> & ->)
    |destruct (O _ H) as (h & ->)|destruct (A _ H) as ((h & ->) & -> & ->)|destruct (B _ H) as ((h & ->) & -> & ->)];
    rewrite ?Z.add_0_r, ?Z.sub_0_r; reflexivity.
Qed.
Example c81_pair_ok : advPair (mkHandler AcrossY 3 []) (0, 1, 0)%R (5, 1, 0) (4, 4)%nat =
  [((5, 1, 0), 4%nat, ((5, 1, 0), 4%nat)); ((5, 1, 0), 4%nat, ((5, 0, 0), 4%nat))].
Proof. apply (c81_pair AcrossY 3 [] (0, 1, 0)%R (5, 1, 0) (4, 4)%nat); [discriminate|]. cbn. lra. Qed.

(** A grain boundary across y: the coordinates are announced as if every point had y = 0.  The
    value computed for the point above a point beyond the boundary is added to the entry of the
    point below. *)
Theorem c81_across_refuted :
  let hs := [mkHandler Surface 0 [(0, 0)%nat]; mkHandler AcrossY (3 / 2) [(0, 0)%nat]] in
  let m := mkMesh 5 5 1 1 0 0 0 0 0 (fun _ => 0) [] in
  let cs := coords star2 IZR hs [] [] 1 0 (flat_map (column 1 1) (columns2 2 1)) in
  let ws := writes star2 m (empty2 m) IZR 1 1 hs [] [] 1 (fun _ => 0%R) 1 1 (columns2 2 1) in
  exists k, In (k, (((1, 2, 0), 0%nat), ((1, 3, 0), 0%nat))) ws /\
            nth_error cs k = Some (Some (((1, 2, 0), 0%nat), ((1, 1, 0), 0%nat))) /\
            forall w, In w (cs) -> w <> Some (((1, 2, 0), 0%nat), ((1, 3, 0), 0%nat)).
Proof.
  cbv zeta. exists 8%nat.
  assert (A : advPair (mkHandler AcrossY (3 / 2) [(0, 0)%nat]) (1, 0, 0)%R (1, 2, 0) (0, 0)%nat = [(((1, 2, 0), 0%nat), ((1, 2, 0), 0%nat)); (((1, 2, 0), 0%nat), ((1, 1, 0), 0%nat))]).
  { apply (c81_pair AcrossY (3 / 2) [(0, 0)%nat] (1, 0, 0)%R (1, 2, 0) (0, 0)%nat); [discriminate|]. cbn. lra. }
  assert (B : advPair (mkHandler AcrossY (3 / 2) [(0, 0)%nat]) (1, 2 * 1, 0 * 1)%R (1, 2, 0) (0, 0)%nat = [(((1, 2, 0), 0%nat), ((1, 2, 0), 0%nat)); (((1, 2, 0), 0%nat), ((1, 3, 0), 0%nat))]).
  { apply (c81_pair AcrossY (3 / 2) [(0, 0)%nat] (1, 2 * 1, 0 * 1)%R (1, 2, 0) (0, 0)%nat); [discriminate|]. cbn. lra. }
  assert (C : coords star2 IZR [mkHandler Surface 0 [(0, 0)%nat]; mkHandler AcrossY (3 / 2) [(0, 0)%nat]] [] [] 1 0 (flat_map (column 1 1) (columns2 2 1)) =
    map Some (starAt star2 (1, 2, 0) (1, 1)%nat ++ [(((1, 2, 0), 0%nat), ((1, 2, 0), 0%nat)); (((1, 2, 0), 0%nat), ((2, 2, 0), 0%nat))] ++
              [(((1, 2, 0), 0%nat), ((1, 2, 0), 0%nat)); (((1, 2, 0), 0%nat), ((1, 1, 0), 0%nat))])).
  { unfold coords. change (flat_map (column 1 1) (columns2 2 1)) with [(1, 2, 0)]. cbn [flat_map app]. unfold coordsAt. cbn [located flat_map clusters kind map app ptx fst].
    rewrite A. reflexivity. }
  rewrite C. split; [|split; [reflexivity|]].
  - unfold writes. cbv zeta. apply in_or_app. right. change (flat_map (column 1 1) (columns2 2 1)) with [(1, 2, 0)].
    cbn [mainPoints]. cbv zeta. match goal with |- context [if ?b then _ else _] => change b with false end. cbv iota.
    match goal with |- context [placeAll ?k _] => change k with 5%nat end.
    unfold views. cbn [located flat_map clusters kind map app ptx pty ptz fst snd length]. rewrite B. cbn. auto 8.
  - intros w Hw. cbn in Hw. intuition (subst; discriminate).
Qed.
(** Handlers with different numbers of clusters (the dummy handler of the surface and a grain
    boundary across x): one coordinate is announced per missing cluster, two values are left out.
    Values reach wrong entries and positions behind the announced ones. *)
Theorem c81_unequal_refuted :
  let hs := [mkHandler Surface 0 []; mkHandler AcrossX 10 [(0, 0)%nat]] in
  let m := mkMesh 5 5 1 1 0 0 0 0 0 (fun _ => 0) [] in
  let cs := coords star2 IZR hs [] [(0, 0)%nat] 1 0 (flat_map (column 1 1) (columns2 2 1)) in
  let ws := writes star2 m (empty2 m) IZR 1 1 hs [] [(0, 0)%nat] 1 (fun _ => 0%R) 1 1 (columns2 2 1) in
  (exists k l, In (k, l) ws /\ nth_error cs k <> Some (Some l)) /\ (exists k l, In (k, l) ws /\ (length cs <= k)%nat).
Proof.
  cbv zeta.
  assert (A : forall y z, advPair (mkHandler AcrossX 10 [(0, 0)%nat]) (1, y, z)%R (1, 2, 0) (0, 0)%nat = [(((1, 2, 0), 0%nat), ((1, 2, 0), 0%nat)); (((1, 2, 0), 0%nat), ((0, 2, 0), 0%nat))]).
  { intros y z. apply (c81_pair AcrossX 10 [(0, 0)%nat] (1, y, z)%R (1, 2, 0) (0, 0)%nat); [discriminate|]. cbn. lra. }
  assert (C : coords star2 IZR [mkHandler Surface 0 []; mkHandler AcrossX 10 [(0, 0)%nat]] [] [(0, 0)%nat] 1 0 (flat_map (column 1 1) (columns2 2 1)) =
    map Some (starAt star2 (1, 2, 0) (1, 1)%nat) ++ [None] ++ map Some [(((1, 2, 0), 0%nat), ((1, 2, 0), 0%nat)); (((1, 2, 0), 0%nat), ((0, 2, 0), 0%nat))] ++
    [Some (((1, 2, 0), 0%nat), ((1, 2, 0), 0%nat))]).
  { unfold coords. change (flat_map (column 1 1) (columns2 2 1)) with [(1, 2, 0)]. cbn [flat_map app]. unfold coordsAt. cbn [located flat_map clusters kind map app ptx fst].
    rewrite A. reflexivity. }
  assert (W : forall w, In w (place 7 [(((1, 2, 0), 0%nat), ((1, 2, 0), 0%nat)); (((1, 2, 0), 0%nat), ((0, 2, 0), 0%nat))] ++ [(9%nat, (((1, 2, 0), 0%nat), ((1, 2, 0), 0%nat)))]) ->
    In w (writes star2 (mkMesh 5 5 1 1 0 0 0 0 0 (fun _ => 0) []) (empty2 (mkMesh 5 5 1 1 0 0 0 0 0 (fun _ => 0) [])) IZR 1 1
      [mkHandler Surface 0 []; mkHandler AcrossX 10 [(0, 0)%nat]] [] [(0, 0)%nat] 1 (fun _ => 0%R) 1 1 (columns2 2 1))).
  { intros w Hw. unfold writes. cbv zeta. apply in_or_app. right. change (flat_map (column 1 1) (columns2 2 1)) with [(1, 2, 0)].
    cbn [mainPoints]. cbv zeta. match goal with |- context [if ?b then _ else _] => change b with false end. cbv iota.
    match goal with |- context [placeAll ?k _] => change k with 5%nat end.
    unfold views. cbn [located flat_map clusters kind map app ptx pty ptz fst snd length]. rewrite A. cbn in Hw |- *. tauto. }
  rewrite C. split.
  - exists 7%nat, (((1, 2, 0), 0%nat), ((1, 2, 0), 0%nat)). split; [apply W; left; reflexivity|]. cbn. discriminate.
  - exists 9%nat, (((1, 2, 0), 0%nat), ((1, 2, 0), 0%nat)). split; [apply W; right; right; left; reflexivity|]. cbn. lia.
Qed.

(** ** Reactions: the position under which the network files its derivative with respect to [c] in
    row [r] (ClusterConnectivity.h getPosition) is announced with this row and column. *)
Lemma crsMap_S rs r : ConnModel.crsMap rs (S r) = (ConnModel.crsMap rs r + length (nth r rs []))%nat.
Proof. reflexivity. Qed.
Lemma crsMap_cons x rs r : ConnModel.crsMap (x :: rs) (S r) = (length x + ConnModel.crsMap rs r)%nat.
Proof. induction r as [|r IH]; [unfold ConnModel.crsMap; cbn; lia|]. rewrite crsMap_S, IH, crsMap_S. cbn [nth]. lia. Qed.
Lemma pairs_nth rs : forall s r i, (r < length rs)%nat -> (i < length (nth r rs []))%nat ->
  nth_error (flat_map (fun ir => map (fun j => (fst ir, j)) (snd ir)) (combine (seq s (length rs)) rs)) (ConnModel.crsMap rs r + i) =
    Some ((s + r)%nat, nth i (nth r rs []) 0%nat) /\
  nth (ConnModel.crsMap rs r + i) (concat rs) 0%nat = nth i (nth r rs []) 0%nat /\
  (ConnModel.crsMap rs r + i < length (concat rs))%nat.
Proof.
  induction rs as [|x rs IH]; intros s r i Hr Hi; [cbn in Hr; lia|]. cbn [length seq combine flat_map fst snd concat]. destruct r as [|r].
  - cbn [nth] in *. change (ConnModel.crsMap (x :: rs) 0) with 0%nat. rewrite Nat.add_0_l, Nat.add_0_r. rewrite nth_error_app1 by (rewrite map_length; exact Hi).
    rewrite (map_nth_error _ i x (nth_error_nth' x 0%nat Hi)). rewrite app_nth1 by exact Hi. rewrite app_length. repeat split. lia.
  - rewrite crsMap_cons. cbn [nth] in *. destruct (IH (S s) r i) as (A & B & C); [cbn in Hr; lia|exact Hi|].
    rewrite nth_error_app2 by (rewrite map_length; lia). rewrite map_length.
    replace (length x + ConnModel.crsMap rs r + i - length x)%nat with (ConnModel.crsMap rs r + i)%nat by lia.
    rewrite A. rewrite app_nth2 by lia. replace (length x + ConnModel.crsMap rs r + i - length x)%nat with (ConnModel.crsMap rs r + i)%nat by lia.
    rewrite B, app_length. split; [f_equal; f_equal; lia|]. split; [reflexivity|lia].
Qed.
Lemma findFrom_spec e c fuel : forall pos, (exists p, (pos <= p < pos + fuel)%nat /\ e p = c) ->
  exists p, ConnModel.findFrom e c pos fuel = Some p /\ (pos <= p < pos + fuel)%nat /\ e p = c.
Proof.
  induction fuel as [|f IH]; intros pos (p & B & E); [lia|]. cbn [ConnModel.findFrom]. destruct (Nat.eqb_spec (e pos) c) as [G|G].
  - exists pos. repeat split; auto; lia.
  - destruct (IH (S pos)) as (p' & F & B' & E'); [exists p; split; [assert (p <> pos) by congruence; lia|exact E]|]. exists p'. repeat split; auto; lia.
Qed.
Theorem c81_network rs r c : (r < length rs)%nat -> In c (nth r rs []) ->
  exists p, ConnModel.getPosition rs r c = Some p /\ nth_error (rowColPairs rs) p = Some (r, c) /\
            nth_error (coords0 rs) p = Some (r, c) /\ (S p < length (coords0 rs))%nat.
Proof.
  intros Hr Hc. destruct (In_nth _ _ 0%nat Hc) as (i & Hi & Ei).
  assert (H : exists p, (ConnModel.crsMap rs r <= p < ConnModel.crsMap rs r + (ConnModel.crsMap rs (S r) - ConnModel.crsMap rs r))%nat /\
     nth p (ConnModel.crsEntries rs) 0%nat = c).
  { exists (ConnModel.crsMap rs r + i)%nat. rewrite crsMap_S. split; [lia|]. unfold ConnModel.crsEntries. rewrite (proj1 (proj2 (pairs_nth rs 0 r i Hr Hi))). exact Ei. }
  destruct (findFrom_spec _ _ _ _ H) as (p & F & B & E). exists p. split; [exact F|]. rewrite crsMap_S in B.
  destruct (pairs_nth rs 0 r (p - ConnModel.crsMap rs r)%nat Hr) as (P1 & P2 & P3); [lia|].
  replace (ConnModel.crsMap rs r + (p - ConnModel.crsMap rs r))%nat with p in * by lia.
  assert (Q : nth_error (rowColPairs rs) p = Some (r, c)).
  { unfold rowColPairs. rewrite P1, <- P2. unfold ConnModel.crsEntries in E. rewrite E. reflexivity. }
  assert (L : (p < length (rowColPairs rs))%nat) by (apply nth_error_Some; congruence).
  unfold coords0. rewrite nth_error_app1, app_length by exact L. cbn [length]. split; [exact Q|]. split; [exact Q|lia].
Qed.
(** As many coordinates as derivatives, and one more in the end for the temperature, which is
    never given a value. *)
Theorem c81_zero rs : length (rowColPairs rs) = length (concat rs) /\
  nth_error (coords0 rs) (length (concat rs)) = Some (length rs, length rs) /\ length (coords0 rs) = S (length (concat rs)).
Proof.
  assert (L : forall s, length (flat_map (fun ir => map (fun j => (fst ir, j)) (snd ir)) (combine (seq s (length rs)) rs)) = length (concat rs)).
  { induction rs as [|x r IH]; intros s; [reflexivity|]. cbn [length seq combine flat_map fst snd concat]. rewrite !app_length, map_length, IH. reflexivity. }
  unfold coords0. split; [apply L|]. split.
  - rewrite nth_error_app2 by (unfold rowColPairs; rewrite L; lia). unfold rowColPairs. rewrite L, Nat.sub_diag. reflexivity.
  - rewrite app_length. unfold rowColPairs. rewrite L. cbn [length]. lia.
Qed.
Example c81_network_ok : ConnModel.getPosition [[0; 2]; [1]; [2; 0]]%nat 2 0 = Some 4%nat /\
  coords0 [[0; 2]; [1]; [2; 0]]%nat = [(0, 0); (0, 2); (1, 1); (2, 2); (2, 0); (3, 3)]%nat.
Proof. split; reflexivity. Qed.

Print Assumptions c81_plane. Print Assumptions c81_space. Print Assumptions c81_handlers_partial. Print Assumptions c81_once.
Print Assumptions c81_plane_values. Print Assumptions c81_space_values. Print Assumptions c81_pair. Print Assumptions c81_across_refuted.
Print Assumptions c81_unequal_refuted. Print Assumptions c81_network. Print Assumptions c81_zero.
