(** C92: the surface plots show every point of the grid, once, at its place, however many processes there are and however they are scheduled. *)
From Coq Require Import Lia Lra.
From Verif Require Import GatherModel.
Open Scope R_scope.
Open Scope list_scope.

(** ** One point after the other *)
(** A point: the process which has it, and what is shown. *)
Definition round := (nat * (R * R * R))%type.
Definition at_ (q : nat) (r : round) : list act := let '(o, (x, y, v)) := r in atPoint q (q =? o)%nat x y v.
Definition rprog (q : nat) (l : list round) : list act := flat_map (at_ q) l.
(** The three messages, and the state of the gathering of a point: [i] of them sent, [j] received. *)
Definition messages (o : nat) (p : R * R * R) : list (nat * nat * R) := let '(x, y, v) := p in [(o, 10%nat, x); (o, 11%nat, y); (o, 12%nat, v)].
Definition sends (p : R * R * R) : list act := let '(x, y, v) := p in [Send 10 x; Send 11 y; Send 12 v].
Definition recvs : list act := [Recv 10; Recv 11; Recv 12; PutReceived].
Definition has (s : state) (p : R * R * R) (j : nat) : Prop :=
  let '(x, y, v) := p in ((1 <= j)%nat -> reg s 10%nat = x) /\ ((2 <= j)%nat -> reg s 11%nat = y) /\ ((3 <= j)%nat -> reg s 12%nat = v).
Inductive inv (n : nat) (l : list round) (s : state) : Prop :=
  | IDone : pool s = [] -> points s = map snd l -> (forall q, (q < n)%nat -> prog s q = []) -> inv n l s
  | IOwn a o p b : l = a ++ (o, p) :: b -> o = 0%nat -> pool s = [] -> points s = map snd a ->
      (forall q, (q < n)%nat -> prog s q = rprog q ((o, p) :: b)) -> inv n l s
  | ISend a o p b i j : l = a ++ (o, p) :: b -> (0 < o < n)%nat -> (i <= 3)%nat -> (j <= i)%nat -> pool s = firstn (i - j) (skipn j (messages o p)) -> points s = map snd a -> has s p j ->
      prog s o = skipn i (sends p) ++ Barrier :: rprog o b -> prog s 0%nat = skipn j recvs ++ Barrier :: rprog 0 b ->
      (forall q, (q < n)%nat -> q <> o -> q <> 0%nat -> prog s q = Barrier :: rprog q b) -> inv n l s
  | IWait a r b : l = a ++ r :: b -> pool s = [] -> points s = map snd (a ++ [r]) -> (forall q, (q < n)%nat -> prog s q = Barrier :: rprog q b) -> inv n l s.
Lemma inv_start n l a b s : (0 < n)%nat -> l = a ++ b -> (forall r, In r l -> (fst r < n)%nat) -> pool s = [] -> points s = map snd a -> (forall q, (q < n)%nat -> prog s q = rprog q b) -> inv n l s.
Proof.
  intros Hn E HO HP HQ HS. destruct b as [|[o p] b].
  - rewrite app_nil_r in E. subst. apply IDone; auto.
  - destruct (Nat.eq_dec o 0) as [->|N]; [eapply IOwn; eauto|]. assert (L : (o < n)%nat) by (apply (HO (o, p)); rewrite E; apply in_or_app; right; left; reflexivity).
    destruct p as [[x y] v].
    eapply (ISend n l s a o (x, y, v) b 0 0); eauto; try lia; cbn [firstn Nat.sub]; try exact HP.
    + cbn. repeat split; lia.
    + rewrite HS by lia. unfold rprog. cbn [flat_map at_]. unfold atPoint. rewrite Nat.eqb_refl. destruct (Nat.eqb_spec o 0); [lia|]. reflexivity.
    + rewrite HS by lia. unfold rprog. cbn [flat_map at_]. unfold atPoint. destruct (Nat.eqb_spec 0 o); [lia|]. reflexivity.
    + intros q Hq N1 N2. rewrite HS by lia. unfold rprog. cbn [flat_map at_]. unfold atPoint. destruct (Nat.eqb_spec q o); [lia|]. destruct (Nat.eqb_spec q 0); [lia|]. reflexivity.
Qed.
Lemma upd_same A (f : nat -> A) k v : upd f k v k = v. Proof. unfold upd. rewrite Nat.eqb_refl. reflexivity. Qed.
Lemma upd_other A (f : nat -> A) k v j : j <> k -> upd f k v j = f j. Proof. intros H. unfold upd. destruct (Nat.eqb_spec j k); [contradiction|reflexivity]. Qed.
Lemma own_programs q p b : rprog q ((0%nat, p) :: b) = (if (q =? 0)%nat then let '(x, y, v) := p in [Put x y v] else []) ++ Barrier :: rprog q b.
Proof. destruct p as [[x y] v]. unfold rprog. cbn [flat_map at_]. unfold atPoint. destruct (q =? 0)%nat; reflexivity. Qed.
(** In every state some process can go on, unless all have finished. *)
Lemma inv_progress sync n l s : (0 < n)%nat -> inv n l s -> (exists s', step sync n s s') \/ final n s.
Proof.
  intros Hn [P Q S|a o [[x y] v] b E Ho P Q S|a o [[x y] v] b i j E Ho Hi Hj P Q HH So S0 Sq|a r b E P Q S].
  - right. exact S.
  - subst o. specialize (S 0%nat Hn). rewrite own_programs in S. cbn in S. left. eexists. eapply SPut. exact S.
  - left. assert (C : (i = 0 \/ i = 1 \/ i = 2 \/ i = 3)%nat) by lia. assert (CJ : (j = i \/ j < i)%nat) by lia. destruct CJ as [->|LJ].
    + rewrite Nat.sub_diag in P. cbn [firstn] in P. destruct C as [->|[->|[->| ->]]]; cbn in So, S0.
      1-3: eexists; eapply (SSend sync n s o); [lia|exact So|intros _ m; rewrite P; intros []].
      eexists. eapply SPutReceived. exact S0.
    + assert (CC : (j = 0 \/ j = 1 \/ j = 2)%nat) by lia. assert (D : exists k, (i - j = S k)%nat) by (exists (i - j - 1)%nat; lia). destruct D as [k D]. rewrite D in P.
      destruct CC as [->|[->| ->]]; cbn in P, S0; eexists; eapply (SRecv sync n s _ _ []); [exact S0|cbn [app]; exact P|intros w []|exact S0|cbn [app]; exact P|intros w []|exact S0|cbn [app]; exact P|intros w []].
  - left. eexists. eapply SBarrier. exact S.
Qed.
Ltac clash H1 H2 := rewrite H1 in H2; discriminate H2.
(** Every step keeps the state of the gathering. *)
Lemma inv_step sync n l s s' : (0 < n)%nat -> (forall r, In r l -> (fst r < n)%nat) -> inv n l s -> step sync n s s' -> inv n l s'.
Proof.
  intros Hn HO I ST. destruct I as [P Q S|a o [[x y] v] b E Ho P Q S|a o [[x y] v] b i j E Ho Hi Hj P Q HH So S0 Sq|a r b E P Q S].
  - exfalso. destruct ST as [q tag v r Hq A _|tag r a src v b A|x y v r A|r A|rest A].
    + rewrite (S q Hq) in A. discriminate.
    + rewrite (S 0%nat Hn) in A. discriminate.
    + rewrite (S 0%nat Hn) in A. discriminate.
    + rewrite (S 0%nat Hn) in A. discriminate.
    + specialize (A 0%nat Hn). rewrite (S 0%nat Hn) in A. discriminate.
  - subst o. assert (S0 := S 0%nat Hn). rewrite own_programs in S0. cbn in S0.
    destruct ST as [q tag w r Hq A _|tag r a' src w b' A|x' y' v' r A|r A|rest A].
    + specialize (S q Hq). rewrite own_programs in S. destruct (Nat.eqb_spec q 0); cbn in S; rewrite S in A; discriminate.
    + clash S0 A.
    + rewrite S0 in A. injection A as <- <- <- <-. apply (IWait n l _ a (0%nat, (x, y, v)) b); cbn [pool points prog]; auto.
      * rewrite map_app, Q. reflexivity.
      * intros q Hq. destruct (Nat.eq_dec q 0) as [->|N]; [apply upd_same|]. rewrite upd_other by exact N. rewrite (S q Hq), own_programs. destruct (Nat.eqb_spec q 0); [contradiction|reflexivity].
    + clash S0 A.
    + specialize (A 0%nat Hn). clash S0 A.
  - destruct ST as [q tag w r Hq A SY|tag r a' src w b' A PE NB|x' y' v' r A|r A|rest A].
    + destruct (Nat.eq_dec q o) as [->|No].
      * assert (C : (i = 0 \/ i = 1 \/ i = 2 \/ i = 3)%nat) by lia.
        assert (K : (i < 3)%nat /\ r = skipn (S i) (sends (x, y, v)) ++ Barrier :: rprog o b /\ pool s ++ [(o, tag, w)] = firstn (S i - j) (skipn j (messages o (x, y, v)))).
        { rewrite P. destruct C as [->|[->|[->| ->]]]; cbn in So; rewrite So in A; injection A as <- <- <- || discriminate A.
          - assert (j = 0)%nat as -> by lia. repeat split; auto; lia.
          - assert (CJ : (j = 0 \/ j = 1)%nat) by lia. destruct CJ as [->| ->]; repeat split; auto; lia.
          - assert (CJ : (j = 0 \/ j = 1 \/ j = 2)%nat) by lia. destruct CJ as [->|[->| ->]]; repeat split; auto; lia. }
        destruct K as (K1 & K2 & K3). apply (ISend n l _ a o (x, y, v) b (S i) j); cbn [pool points prog reg]; auto; try lia.
        -- rewrite upd_same. exact K2.
        -- rewrite upd_other by lia. exact S0.
        -- intros q Hq' N1 N2. rewrite upd_other by exact N1. auto.
      * exfalso. destruct (Nat.eq_dec q 0) as [->|N0]; [|rewrite (Sq q Hq No N0) in A; discriminate].
        rewrite S0 in A. assert (CJ : (j = 0 \/ j = 1 \/ j = 2 \/ j = 3)%nat) by lia. destruct CJ as [->|[->|[->| ->]]]; discriminate A.
    + assert (CJ : (j = 0 \/ j = 1 \/ j = 2 \/ j = 3)%nat) by lia.
      assert (D : i = j \/ (j < i)%nat) by lia. destruct D as [->|D]; [rewrite Nat.sub_diag in P; rewrite P in PE; destruct a'; discriminate PE|].
      assert (K : (j < 3)%nat /\ r = skipn (S j) recvs ++ Barrier :: rprog 0 b /\ a' ++ b' = firstn (i - S j) (skipn (S j) (messages o (x, y, v))) /\ has (St (upd (prog s) 0%nat r) (a' ++ b') (upd (reg s) tag w) (points s)) (x, y, v) (S j)).
      { destruct HH as (h1 & h2 & h3). assert (CI : (i = 1 \/ i = 2 \/ i = 3)%nat) by lia.
        destruct CJ as [->|[->|[->| ->]]]; cbn in S0; rewrite S0 in A; injection A as <- <- || discriminate A; (split; [lia|split; [reflexivity|]]);
        destruct CI as [->|[->| ->]]; try lia; cbn in P; rewrite P in PE;
        (destruct a' as [|m a']; [injection PE as <- <- <-; split; [reflexivity|]; cbn; unfold upd; cbn; repeat split; intros; try lia; auto with arith
                                 |exfalso; injection PE as <- PE; repeat (destruct a' as [|m a']; [discriminate PE || (injection PE; intros; discriminate)|]; injection PE as <- PE); try discriminate PE; destruct a'; discriminate PE]). }
      destruct K as (K1 & K2 & K3 & K4). apply (ISend n l _ a o (x, y, v) b i (S j)); cbn [pool points prog reg]; auto; try lia.
      * rewrite upd_other by lia. exact So.
      * intros q Hq' N1 N2. rewrite upd_other by exact N2. auto.
    + exfalso. rewrite S0 in A. assert (CJ : (j = 0 \/ j = 1 \/ j = 2 \/ j = 3)%nat) by lia. destruct CJ as [->|[->|[->| ->]]]; discriminate A.
    + rewrite S0 in A. assert (CJ : (j = 0 \/ j = 1 \/ j = 2 \/ j = 3)%nat) by lia. destruct CJ as [->|[->|[->| ->]]]; try discriminate A. cbn in A. injection A as <-.
      assert (i = 3)%nat as -> by lia. cbn in So, P. destruct HH as (h1 & h2 & h3). apply (IWait n l _ a (o, (x, y, v)) b); cbn [pool points prog]; auto.
      * rewrite map_app, Q, h1, h2, h3 by lia. reflexivity.
      * intros q Hq. destruct (Nat.eq_dec q 0) as [->|N]; [apply upd_same|]. rewrite upd_other by exact N. destruct (Nat.eq_dec q o) as [->|N']; [exact So|auto].
    + exfalso. specialize (A 0%nat Hn). rewrite S0 in A. assert (CJ : (j = 0 \/ j = 1 \/ j = 2 \/ j = 3)%nat) by lia. destruct CJ as [->|[->|[->| ->]]]; discriminate A.
  - destruct ST as [q tag v r' Hq A _|tag r' a' src v b' A|x y v r' A|r' A|rest A].
    + rewrite (S q Hq) in A. discriminate.
    + rewrite (S 0%nat Hn) in A. discriminate.
    + rewrite (S 0%nat Hn) in A. discriminate.
    + rewrite (S 0%nat Hn) in A. discriminate.
    + apply (inv_start n l (a ++ [r]) b); cbn [pool points prog]; auto; [rewrite <- app_assoc; exact E|].
      intros q Hq. specialize (A q Hq). rewrite (S q Hq) in A. injection A as <-. reflexivity.
Qed.
Lemma inv_reaches sync n l s s' : (0 < n)%nat -> (forall r, In r l -> (fst r < n)%nat) -> inv n l s -> reaches sync n s s' -> inv n l s'.
Proof. intros Hn HO I R. induction R as [|s' s'' R IH ST]; [exact I|]. eapply inv_step; eauto. Qed.
Lemma inv_final n l s : (0 < n)%nat -> inv n l s -> final n s -> points s = map snd l /\ pool s = [].
Proof.
  intros Hn I F. specialize (F 0%nat Hn) as F0. destruct I as [P Q S|a o [[x y] v] b E Ho P Q S|a o [[x y] v] b i j E Ho Hi Hj P Q HH So S0 Sq|a r b E P Q S].
  - auto.
  - exfalso. subst o. rewrite (S 0%nat Hn), own_programs in F0. discriminate.
  - exfalso. rewrite S0 in F0. destruct (skipn j recvs); discriminate.
  - exfalso. rewrite (S 0%nat Hn) in F0. discriminate.
Qed.

(** ** The grid in two dimensions *)
(** The parts of the processes make up the grid: every point has one process. *)
Definition holds2 (b : box) (i j : nat) : Prop := (xs b <= i < xs b + xm b)%nat /\ (ys b <= j < ys b + ym b)%nat.
Definition partition2 (n : nat) (parts : nat -> box) (Mx My : nat) : Prop :=
  forall i j, (i < Mx)%nat -> (j < My)%nat -> exists q, (q < n)%nat /\ forall q', (q' < n)%nat -> (holds2 (parts q') i j <-> q' = q).
Lemma owned2_holds b i j : owned2 b i j = true <-> holds2 b i j.
Proof. unfold owned2, holds2. rewrite !Bool.andb_true_iff, !Nat.leb_le, !Nat.ltb_lt. tauto. Qed.
(** What is shown: row after row, the middle of the cell relative to the first point, the row times the step, and the concentration there. *)
Definition shown (grid : list R) (hy : R) (conc : nat -> nat -> R) (Mx My : nat) : list (R * R * R) :=
  flat_map (fun j => map (fun i => ((nth i grid 0 + nth (S i) grid 0) / 2 - nth 1 grid 0, INR j * hy, conc j i)) (seq 0 Mx)) (seq 0 My).
Section PLOT.
Variables (grid : list R) (hy : R) (conc : nat -> nat -> R) (Mx My n : nat) (parts : nat -> box).
Notation programs := (fun q => program grid hy conc Mx My q (parts q)).
Definition ownerOf (i j : nat) : nat := match find (fun q => owned2 (parts q) i j) (seq 0 n) with Some q => q | None => 0%nat end.
Definition rounds : list round := flat_map (fun j => map (fun i => (ownerOf i j, (xOf grid i, yOf hy j, conc j i))) (seq 0 Mx)) (seq 0 My).
Lemma ownerOf_spec i j : partition2 n parts Mx My -> (i < Mx)%nat -> (j < My)%nat -> (ownerOf i j < n)%nat /\ forall q, (q < n)%nat -> owned2 (parts q) i j = (q =? ownerOf i j)%nat.
Proof.
  intros P Hi Hj. destruct (P i j Hi Hj) as (q & Hq & U0). assert (U : forall q', (q' < n)%nat -> (owned2 (parts q') i j = true <-> q' = q)) by (intros q' Hq'; rewrite owned2_holds; auto). clear U0. unfold ownerOf. destruct (find _ _) as [q'|] eqn:F.
  - apply find_some in F as [I F]. apply in_seq in I. apply (U q' ltac:(lia)) in F. subst q'. split; [exact Hq|]. intros k Hk. specialize (U k Hk). destruct (Nat.eqb_spec k q) as [E|E]; [apply U; exact E|].
    destruct (owned2 (parts k) i j); [exfalso; apply E, U; reflexivity|reflexivity].
  - exfalso. eapply find_none in F; [|apply in_seq; split; [apply Nat.le_0_l|exact Hq]]. cbv beta in F. assert (T : owned2 (parts q) i j = true) by (apply U; auto). congruence.
Qed.
Lemma flat_map_ext_in A B (f g : A -> list B) l : (forall x, In x l -> f x = g x) -> flat_map f l = flat_map g l.
Proof. induction l as [|x l IH]; intros H; [reflexivity|]. cbn [flat_map]. rewrite H by (left; reflexivity). rewrite IH by (intros; apply H; right; assumption). reflexivity. Qed.
Lemma flat_map_map A B C (f : B -> list C) (g : A -> B) l : flat_map f (map g l) = flat_map (fun x => f (g x)) l.
Proof. induction l as [|x l IH]; [reflexivity|]. cbn [map flat_map]. rewrite IH. reflexivity. Qed.
Lemma flat_map_flat_map A B C (f : B -> list C) (g : A -> list B) l : flat_map f (flat_map g l) = flat_map (fun x => flat_map f (g x)) l.
Proof. induction l as [|x l IH]; [reflexivity|]. cbn [flat_map]. rewrite flat_map_app, IH. reflexivity. Qed.
Lemma programs_rounds q : partition2 n parts Mx My -> (q < n)%nat -> programs q = rprog q rounds.
Proof.
  intros P Hq. unfold program, rprog, rounds. rewrite flat_map_flat_map. apply flat_map_ext_in. intros j Hj. apply in_seq in Hj. rewrite flat_map_map. apply flat_map_ext_in. intros i Hi. apply in_seq in Hi.
  cbn [at_]. destruct (ownerOf_spec i j P ltac:(lia) ltac:(lia)) as [_ O]. rewrite (O q Hq). reflexivity.
Qed.
Lemma rounds_shown : map snd rounds = shown grid hy conc Mx My.
Proof.
  unfold rounds, shown. rewrite (flat_map_concat_map _ (seq 0 My)), concat_map, map_map, flat_map_concat_map. f_equal. apply map_ext. intros j. rewrite map_map. apply map_ext. intros i. unfold xOf, yOf. cbn [snd]. rewrite Nat.add_1_r. reflexivity.
Qed.
Lemma rounds_owner : partition2 n parts Mx My -> forall r, In r rounds -> (fst r < n)%nat.
Proof.
  intros P r I. unfold rounds in I. apply in_flat_map in I as (j & Hj & I). apply in_map_iff in I as (i & <- & Hi). apply in_seq in Hj, Hi. apply ownerOf_spec; [exact P|lia|lia].
Qed.
(** Whatever the order of the steps, and whether or not a send waits for its message to be received: no process waits for ever, and when all have finished the points are those of the grid. *)
Theorem c92_surface sync s : (0 < n)%nat -> partition2 n parts Mx My -> reaches sync n (begin programs) s ->
  ((exists s', step sync n s s') \/ final n s) /\ (final n s -> points s = shown grid hy conc Mx My /\ pool s = []).
Proof.
  intros Hn P R.
  assert (I : inv n rounds s).
  { eapply inv_reaches; [exact Hn|apply rounds_owner; exact P| |exact R]. apply (inv_start n rounds [] rounds); auto; [apply rounds_owner; exact P|]. intros q Hq. apply (programs_rounds q P Hq). }
  split; [eapply inv_progress; eauto|]. intros F. rewrite <- rounds_shown. eapply inv_final; eauto.
Qed.
End PLOT.
Print Assumptions c92_surface.
(** Every run ends. *)
Fixpoint total (f : nat -> list act) (n : nat) : nat := match n with O => O | S k => (total f k + length (f k))%nat end.
Lemma total_upd f q r n : (q < n)%nat -> (length r < length (f q))%nat -> (total (upd f q r) n < total f n)%nat.
Proof.
  intros Hq HL. assert (K : forall m, (m <= q)%nat -> total (upd f q r) m = total f m).
  { induction m as [|m IH]; intros Hm; [reflexivity|]. cbn [total]. rewrite IH by lia. rewrite upd_other by lia. reflexivity. }
  induction n as [|n IH]; [lia|]. cbn [total]. destruct (Nat.eq_dec q n) as [->|N]; [rewrite K by lia; rewrite upd_same; lia|]. rewrite upd_other by lia. specialize (IH ltac:(lia)). lia.
Qed.
Theorem c92_ends sync n s s' : (0 < n)%nat -> step sync n s s' -> (total (prog s') n < total (prog s) n)%nat.
Proof.
  intros Hn [q tag v r Hq A _|tag r a src v b A|x y v r A|r A|rest A]; cbn [prog].
  - apply total_upd; [exact Hq|]. rewrite A. cbn. lia.
  - apply total_upd; [exact Hn|]. rewrite A. cbn. lia.
  - apply total_upd; [exact Hn|]. rewrite A. cbn. lia.
  - apply total_upd; [exact Hn|]. rewrite A. cbn. lia.
  - assert (K : forall m, (m <= n)%nat -> (total rest m + m = total (prog s) m)%nat).
    { induction m as [|m IH]; intros Hm; [reflexivity|]. cbn [total]. specialize (IH ltac:(lia)). rewrite (A m ltac:(lia)). cbn [length]. lia. }
    specialize (K n (le_n n)). lia.
Qed.
Print Assumptions c92_ends.
Example c92_surface_ok : partition2 2 (fun q => if (q =? 0)%nat then Box 0 1 0 1 0 1 else Box 1 1 0 1 0 1) 2 1 /\
  shown [0; 1; 2; 4] 3 (fun j i => INR (5 + i)) 2 1 = [((0 + 1) / 2 - 1, 0 * 3, INR 5); ((1 + 2) / 2 - 1, 0 * 3, INR 6)].
Proof.
  split; [|reflexivity]. intros i j Hi Hj. assert (j = 0)%nat as -> by lia. assert (C : (i = 0 \/ i = 1)%nat) by lia. destruct C as [->| ->].
  - exists 0%nat. split; [lia|]. intros q Hq. assert (C : (q = 0 \/ q = 1)%nat) by lia. destruct C as [->| ->]; unfold holds2; cbn; lia.
  - exists 1%nat. split; [lia|]. intros q Hq. assert (C : (q = 0 \/ q = 1)%nat) by lia. destruct C as [->| ->]; unfold holds2; cbn; lia.
Qed.

(** ** Three dimensions *)
Definition holds3 (b : box) (i j k : nat) : Prop := holds2 b i j /\ (zs b <= k < zs b + zm b)%nat.
Definition partition3 (ps : list box) (Mx My Mz : nat) : Prop :=
  forall i j k, (i < Mx)%nat -> (j < My)%nat -> (k < Mz)%nat -> exists a b c, ps = a ++ b :: c /\ holds3 b i j k /\ forall d, In d (a ++ c) -> ~ holds3 d i j k.
Lemma owned3_holds b i j k : owned3 b i j k = true <-> holds3 b i j k.
Proof. unfold owned3, holds3. rewrite !Bool.andb_true_iff, owned2_holds, !Nat.leb_le, !Nat.ltb_lt. tauto. Qed.
Lemma one_owner ps Mx My Mz i j k v : partition3 ps Mx My Mz -> (i < Mx)%nat -> (j < My)%nat -> (k < Mz)%nat -> Rsum ps (fun b => if owned3 b i j k then v else 0) = v.
Proof.
  intros P Hi Hj Hk. destruct (P i j k Hi Hj Hk) as (a & b & c & -> & T & F0). apply owned3_holds in T. assert (F : forall d, In d (a ++ c) -> owned3 d i j k = false) by (intros d Hd; specialize (F0 d Hd); rewrite <- owned3_holds in F0; destruct (owned3 d i j k); [contradiction F0; reflexivity|reflexivity]). clear F0. rewrite Rsum_app. cbn [Rsum fold_right]. rewrite T.
  rewrite (Rsum_zero a) by (intros d Hd; rewrite F by (apply in_or_app; left; exact Hd); reflexivity).
  change (fold_right (fun x acc => (if owned3 x i j k then v else 0) + acc) 0 c) with (Rsum c (fun d => if owned3 d i j k then v else 0)).
  rewrite (Rsum_zero c) by (intros d Hd; rewrite F by (apply in_or_app; right; exact Hd); reflexivity). lra.
Qed.
(** Every point of the plot shows the sum of the concentrations along the third direction, whatever the parts of the processes. *)
Theorem c92_xy grid hy conc Mx My Mz ps : partition3 ps Mx My Mz ->
  surfaceXY grid hy conc Mx My Mz ps = shown grid hy (fun j i => Rsum (seq 0 Mz) (fun k => conc k j i)) Mx My.
Proof.
  intros P. unfold surfaceXY, shown. apply flat_map_ext_in. intros j Hj. apply in_seq in Hj. apply map_ext_in. intros i Hi. apply in_seq in Hi. unfold xOf, yOf. rewrite Nat.add_1_r. f_equal.
  rewrite (Rsum_swap ps (seq 0 Mz)). apply Rsum_ext. intros k Hk. apply in_seq in Hk. eapply one_owner; eauto; lia.
Qed.
Print Assumptions c92_xy.
Theorem c92_xz grid hz conc Mx My Mz ps : partition3 ps Mx My Mz ->
  surfaceXZ grid hz conc Mx My Mz ps = shown grid hz (fun k i => Rsum (seq 0 My) (fun j => conc k j i)) Mx Mz.
Proof.
  intros P. unfold surfaceXZ, shown. apply flat_map_ext_in. intros k Hk. apply in_seq in Hk. apply map_ext_in. intros i Hi. apply in_seq in Hi. unfold xOf, yOf. rewrite Nat.add_1_r. f_equal.
  rewrite (Rsum_swap ps (seq 0 My)). apply Rsum_ext. intros j Hj. apply in_seq in Hj. eapply one_owner; eauto; lia.
Qed.
Print Assumptions c92_xz.
(** It is not the concentration, nor its integral: with the same concentration everywhere it is the number of layers times the concentration, whatever their thickness. *)
Theorem c92_integral_refuted grid hy c Mx My Mz ps : partition3 ps Mx My Mz -> surfaceXY grid hy (fun _ _ _ => c) Mx My Mz ps = shown grid hy (fun _ _ => INR Mz * c) Mx My.
Proof. intros P. rewrite c92_xy by exact P. unfold shown. apply flat_map_ext_in. intros j _. apply map_ext. intros i. f_equal. rewrite Rsum_const, seq_length. reflexivity. Qed.
Print Assumptions c92_integral_refuted.
Example c92_three_ok : partition3 [Box 0 1 0 1 0 1; Box 0 1 0 1 1 2] 1 1 3 /\ surfaceXY [0; 1; 2] 1 (fun k _ _ => INR k) 1 1 3 [Box 0 1 0 1 0 1; Box 0 1 0 1 1 2] = [((0 + 1) / 2 - 1, 0 * 1, 0 + (INR 1 + (INR 2 + 0)))].
Proof.
  assert (P : partition3 [Box 0 1 0 1 0 1; Box 0 1 0 1 1 2] 1 1 3).
  { intros i j k Hi Hj Hk. assert (i = 0)%nat as -> by lia. assert (j = 0)%nat as -> by lia. assert (C : (k = 0 \/ k = 1 \/ k = 2)%nat) by lia. destruct C as [->|[->| ->]].
    - exists [], (Box 0 1 0 1 0 1), [Box 0 1 0 1 1 2]. split; [reflexivity|]. split; [unfold holds3, holds2; cbn; lia|]. intros d [<-|[]]; unfold holds3, holds2; cbn; lia.
    - exists [Box 0 1 0 1 0 1], (Box 0 1 0 1 1 2), []. split; [reflexivity|]. split; [unfold holds3, holds2; cbn; lia|]. intros d [<-|[]]; unfold holds3, holds2; cbn; lia.
    - exists [Box 0 1 0 1 0 1], (Box 0 1 0 1 1 2), []. split; [reflexivity|]. split; [unfold holds3, holds2; cbn; lia|]. intros d [<-|[]]; unfold holds3, holds2; cbn; lia. }
  split; [exact P|]. rewrite c92_xy by exact P. unfold shown. cbn [seq flat_map map app Rsum fold_right nth INR]. reflexivity.
Qed.
