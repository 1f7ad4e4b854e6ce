(** C70: the moving surface in two and three dimensions; C71: what survives its moves. *)
From Coq Require Import Permutation.
From Verif Require Import EventModel GridProofs.
Open Scope R_scope.

(** ** Reference *)
(** Tungsten atoms of a column: those between its surface and the bottom, and the counted ones
    on the surface. *)
Definition atoms (g : list R) (area : R) (c : column) : R :=
  62.8 * area * (g.[length g - 2] - g.[pos c + 1]) + count c.
(** Cells which do not get smaller with depth. *)
Definition coarsening (g : list R) : Prop := forall i, (i + 2 < length g)%nat -> g.[i + 1] - g.[i] <= g.[i + 2] - g.[i + 1].
Definition lookup (initial : list (nat * R)) (l : nat) : R :=
  fold_left (fun v p => if (fst p =? l)%nat then snd p else v) initial 0.

(** ** Lemmas *)
Lemma rise_spec g area s : forall n k n' s' k', rise g area s n k = Some (n', s', k') ->
  (s' + k' = s + k)%nat /\ (k <= k')%nat /\ n' <= above g area s' /\
  n' = n - 62.8 * area * (g.[s + 1] - g.[s' + 1]).
Proof.
  induction s as [|s IH]; intros n k n' s' k' H; cbn [rise] in H.
  - destruct (Rgt_dec n (above g area 0)); [discriminate|]. inversion H; subst. repeat split; [lia|lra|ring].
  - destruct (Rgt_dec n (above g area (S s))) as [C|C].
    + apply IH in H. destruct H as (A & B & D & E). repeat split; [lia|lia|exact D|].
      rewrite E. unfold above, tungstenDensity. replace (S s) with (s + 1)%nat by lia. ring.
    + inversion H; subst. repeat split; [lia|lra|ring].
Qed.
Lemma rise_moves g area s n k n' s' k' : n > above g area s -> rise g area s n k = Some (n', s', k') -> (s' < s)%nat.
Proof.
  destruct s as [|s]; cbn [rise]; intros H E; destruct (Rgt_dec n _); try contradiction; [discriminate|].
  apply rise_spec in E. lia.
Qed.
Lemma rise_pos g area s : increasing g -> 0 < area -> (s + 1 < length g)%nat -> forall n k n' s' k',
  0 < n -> rise g area s n k = Some (n', s', k') -> 0 < n'.
Proof.
  intros Hg Ha. induction s as [|s IH]; intros Hl n k n' s' k' Hn H; cbn [rise] in H.
  - destruct (Rgt_dec n (above g area 0)); [discriminate|]. inversion H; subst. auto.
  - destruct (Rgt_dec n (above g area (S s))) as [C|C]; [|inversion H; subst; auto].
    apply IH in H; [exact H|lia|lra].
Qed.
Lemma sink_spec g area fuel : forall s n n' s', sink g area fuel s n = Some (n', s') ->
  (s <= s' <= s + fuel)%nat /\ 0 <= n' /\ n' = n + 62.8 * area * (g.[s' + 1] - g.[s + 1]).
Proof.
  induction fuel as [|f IH]; intros s n n' s' H; cbn [sink] in H; destruct (Rlt_dec n 0) as [C|C]; try discriminate.
  - inversion H; subst. repeat split; try lia; [lra|ring].
  - apply IH in H. destruct H as (A & B & D). repeat split; try lia; [exact B|].
    rewrite D. unfold below, tungstenDensity. replace (s + 2)%nat with (S s + 1)%nat by lia. ring.
  - inversion H; subst. repeat split; try lia; [lra|ring].
Qed.
Lemma sink_moves g area fuel s n n' s' : n < 0 -> sink g area fuel s n = Some (n', s') -> (s < s')%nat.
Proof.
  destruct fuel as [|f]; cbn [sink]; intros H E; destruct (Rlt_dec n 0); try contradiction; [discriminate|].
  apply sink_spec in E. lia.
Qed.
(** The last step crossed zero. *)
Lemma sink_last g area fuel : forall s n n' s', n < 0 -> sink g area fuel s n = Some (n', s') ->
  n' < below g area (s' - 1).
Proof.
  induction fuel as [|f IH]; intros s n n' s' Hn H; cbn [sink] in H; destruct (Rlt_dec n 0) as [C|C]; try discriminate; try lra.
  destruct (Rlt_dec (n + below g area s) 0) as [E|E].
  - eapply IH; eassumption.
  - destruct f as [|f]; cbn [sink] in H; destruct (Rlt_dec (n + below g area s) 0); try contradiction; inversion H; subst;
      replace (S s - 1)%nat with s by lia; lra.
Qed.

(** ** One column *)
(** A column which moves keeps its atoms, and afterwards its count is below the next threshold. *)
Theorem c70_column g area initial c f c' f' : increasing g -> 0 < area -> (pos c + 2 < length g)%nat ->
  move g area initial c f = Some (Moves c' f') ->
  atoms g area c' = atoms g area c /\ pos c' <> pos c /\ (1 <= pos c' < length g - 1)%nat /\ 0 <= count c' /\
  ((pos c' < pos c)%nat -> count c' <= 62.8 * (g.[pos c' + 1] - g.[pos c']) * area) /\
  ((pos c < pos c')%nat -> count c' < 62.8 * (g.[pos c' + 1] - g.[pos c']) * area).
Proof.
  intros Hg Ha Hl H. assert (HA : forall i, (S i < length g)%nat -> 0 < above g area i).
  { intros i Hi. specialize (Hg i Hi). unfold above, tungstenDensity. replace (i + 1)%nat with (S i) by lia.
    apply Rmult_lt_0_compat; [apply Rmult_lt_0_compat; lra|exact Ha]. }
  unfold move in H. destruct (Rgt_dec (count c) (above g area (pos c))) as [C|C].
  - destruct (rise g area (pos c) (count c) 0) as [[[n s] k]|] eqn:E; [|discriminate].
    destruct (Nat.ltb_spec (s + 1) 2) as [L|L]; inversion H; subst. cbn [pos count].
    pose proof (rise_spec _ _ _ _ _ _ _ _ E) as (A & B & D & F). pose proof (rise_moves _ _ _ _ _ _ _ _ C E) as M.
    pose proof (HA (pos c) ltac:(lia)).
    assert (P : 0 < n) by (refine (rise_pos g area (pos c) Hg Ha _ _ _ _ _ _ _ E); [lia|lra]).
    repeat split; try lia; try lra.
    + unfold atoms. cbn [pos count]. rewrite F. ring.
    + intros _. exact D.
  - destruct (Rlt_dec (count c) (- above g area (pos c) / 10)) as [C'|C']; [|discriminate].
    destruct (sink g area (length g - 2 - pos c) (pos c) (count c)) as [[n s]|] eqn:E; [|discriminate]. inversion H; subst. cbn [pos count].
    pose proof (HA (pos c) ltac:(lia)) as P. assert (N : count c < 0) by lra.
    pose proof (sink_spec _ _ _ _ _ _ _ E) as (A & B & D). pose proof (sink_moves _ _ _ _ _ _ _ N E) as M.
    pose proof (sink_last _ _ _ _ _ _ _ N E) as T.
    repeat split; try lia; try lra.
    + unfold atoms. cbn [pos count]. rewrite D. ring.
    + intros _. unfold below, tungstenDensity in T. replace (s - 1 + 2)%nat with (s + 1)%nat in T by lia.
      replace (s - 1 + 1)%nat with s in T by lia. exact T.
Qed.
(** The concentrations: a surface which rises leaves the points of the former material alone and
    gives the new ones the initial concentrations; one which sinks empties what it passed. *)
Theorem c70_concentrations g area initial c f c' f' x l : increasing g -> 0 < area -> (pos c + 2 < length g)%nat ->
  move g area initial c f = Some (Moves c' f') ->
  f' x l = if (x <? pos c' + 1)%nat then
             (if (x <? pos c + 1)%nat then (if (pos c' =? x)%nat && (x <? pos c)%nat then 0 else f x l) else 0)
           else if (x <? pos c + 1)%nat then lookup initial l else f x l.
Proof.
  intros Hg Ha Hl H. pose proof (c70_column _ _ _ _ _ _ _ Hg Ha Hl H) as (_ & Hne & _).
  unfold move in H. destruct (Rgt_dec (count c) (above g area (pos c))) as [C|C].
  - destruct (rise g area (pos c) (count c) 0) as [[[n s] k]|] eqn:E; [|discriminate].
    destruct (Nat.ltb_spec (s + 1) 2) as [L|L]; inversion H; subst. cbn [pos count] in *.
    pose proof (rise_spec _ _ _ _ _ _ _ _ E) as (A & B & D & F). unfold refill. fold (lookup initial l).
    replace (s + k)%nat with (pos c) by lia.
    destruct (Nat.leb_spec s x); destruct (Nat.leb_spec x (pos c)); destruct (Nat.eqb_spec x s); destruct (Nat.eqb_spec s x);
      destruct (Nat.ltb_spec x (s + 1)); destruct (Nat.ltb_spec x (pos c + 1)); destruct (Nat.ltb_spec x (pos c)); cbn [andb]; try lia; auto.
  - destruct (Rlt_dec (count c) (- above g area (pos c) / 10)) as [C'|C']; [|discriminate].
    destruct (sink g area (length g - 2 - pos c) (pos c) (count c)) as [[n s]|] eqn:E; [|discriminate]. inversion H; subst. cbn [pos count] in *.
    pose proof (sink_spec _ _ _ _ _ _ _ E) as (A & B & D). unfold erase.
    destruct (Nat.leb_spec (pos c + 1) x); destruct (Nat.ltb_spec x (s + 1)); destruct (Nat.ltb_spec x (pos c + 1)); destruct (Nat.eqb_spec s x);
      destruct (Nat.ltb_spec x (pos c)); cbn [andb]; try lia; auto.
Qed.
(** A grid for the examples: cells of 1 nm, two columns of 1 nm. *)
Definition gE : list R := [0; 1; 2; 3; 4; 5; 6; 7].
Lemma gE_inc : increasing gE.
Proof. intros [|[|[|[|[|[|[|i]]]]]]] H; cbn in *; try lra; lia. Qed.
Definition noConc : conc := fun _ _ => 0.
Lemma rise_stop g area s n k : n <= above g area s -> rise g area s n k = Some (n, s, k).
Proof. intros H. destruct s; cbn [rise]; destruct (Rgt_dec n _); auto; lra. Qed.
Lemma rise_go g area s n k : n > above g area (S s) -> rise g area (S s) n k = rise g area s (n - above g area (S s)) (S k).
Proof. intros H. cbn [rise]. destruct (Rgt_dec n _); auto; lra. Qed.
Lemma sink_stop g area f s n : 0 <= n -> sink g area f s n = Some (n, s).
Proof. intros H. destruct f; cbn [sink]; destruct (Rlt_dec n 0); auto; lra. Qed.
Lemma sink_go g area f s n : n < 0 -> sink g area (S f) s n = sink g area f (S s) (n + below g area s).
Proof. intros H. cbn [sink]. destruct (Rlt_dec n 0); auto; lra. Qed.
Example c70_column_ok :
  (exists n f', move gE 1 [(0%nat, 5)] (Column 130 4) noConc = Some (Moves (Column n 2) f') /\ n = 4.4 /\
     f' 1%nat 0%nat = 0 /\ f' 2%nat 0%nat = 0 /\ f' 3%nat 0%nat = 5 /\ f' 4%nat 0%nat = 5 /\ f' 5%nat 0%nat = 0) /\
  (exists n f', move gE 1 [] (Column (-70) 0) (fun x _ => INR x) = Some (Moves (Column n 2) f') /\ n = 55.6 /\
     f' 2%nat 0%nat = 0 /\ f' 3%nat 0%nat = 3).
Proof.
  split.
  - do 2 eexists. unfold move. cbn [pos count]. destruct (Rgt_dec 130 (above gE 1 4)) as [_|C].
    2:{ exfalso. apply C. unfold above, tungstenDensity, gE. cbn. lra. }
    rewrite rise_go by (unfold above, tungstenDensity, gE; cbn; lra).
    rewrite rise_go by (unfold above, tungstenDensity, gE; cbn; lra).
    rewrite rise_stop by (unfold above, tungstenDensity, gE; cbn; lra). split.
    + change (2 + 1 <? 2)%nat with false. reflexivity.
    + split; [unfold above, tungstenDensity, gE; cbn; lra|]. repeat split; reflexivity.
  - do 2 eexists. unfold move. cbn [pos count]. destruct (Rgt_dec (-70) (above gE 1 0)) as [C|_].
    { exfalso. revert C. unfold above, tungstenDensity, gE. cbn. lra. }
    destruct (Rlt_dec (-70) (- above gE 1 0 / 10)) as [_|C].
    2:{ exfalso. apply C. unfold above, tungstenDensity, gE. cbn. lra. }
    change (length gE - 2 - 0)%nat with 6%nat.
    rewrite sink_go by lra. rewrite sink_go by (unfold below, tungstenDensity, gE; cbn; lra).
    rewrite sink_stop by (unfold below, tungstenDensity, gE; cbn; lra). split.
    + reflexivity.
    + split; [unfold below, tungstenDensity, gE; cbn; lra|]. split; [reflexivity|]. cbn. lra.
Qed.

(** ** All columns *)
Definition sameAtoms g area (a b : column * conc) : Prop := atoms g area (fst b) = atoms g area (fst a).
Lemma moveAll_spec g area initial cs : increasing g -> 0 < area ->
  Forall (fun cf => (pos (fst cf) + 2 < length g)%nat) cs -> forall cs',
  moveAll g area initial cs = Some (cs', false) ->
  Forall2 (fun a b => match move g area initial (fst a) (snd a) with
                      | Some Stays => b = a | Some (Moves c f) => b = (c, f) | _ => False end) cs cs'.
Proof.
  intros Hg Ha Hl. induction Hl as [|cf r Hp Hr IH]; intros cs' H; cbn [moveAll] in H.
  - inversion H; subst. constructor.
  - destruct (move g area initial (fst cf) (snd cf)) as [[|c f|c]|] eqn:E; try discriminate;
      destruct (moveAll g area initial r) as [[r' b]|] eqn:F; try discriminate; inversion H; subst; constructor; auto; rewrite E; auto.
Qed.
(** An event after which the run goes on keeps the atoms of every column, and moves every column
    which made it happen. *)
Theorem c70_event g area initial cs cs' : increasing g -> 0 < area ->
  Forall (fun cf => (pos (fst cf) + 2 < length g)%nat) cs ->
  event2D g area initial cs = Some (cs', false) ->
  Forall2 (fun a b => atoms g area (fst b) = atoms g area (fst a) /\
                      (coarsening g -> fires g area (fst a) -> pos (fst b) <> pos (fst a))) cs cs'.
Proof.
  intros Hg Ha Hl H. unfold event2D in H. destruct (moveAll g area initial cs) as [[cs1 [|]]|] eqn:E; try discriminate.
  destruct (lowest cs1); [|discriminate]. inversion H; subst. apply moveAll_spec in E; auto.
  clear H H2. induction E as [|a b r r' Hab Hr IH]; constructor; [|inversion Hl; auto].
  inversion Hl as [|? ? Hp Hl']; subst. destruct (move g area initial (fst a) (snd a)) as [[|c f|c]|] eqn:F; try contradiction; subst.
  - split; [reflexivity|]. intros Hc Hf. exfalso. unfold move in F.
    destruct (Rgt_dec (count (fst a)) (above g area (pos (fst a)))) as [C|C].
    { destruct (rise _ _ _ _ _) as [[[? ?] ?]|]; [|discriminate]. destruct (_ <? _)%nat; discriminate. }
    destruct (Rlt_dec (count (fst a)) (- above g area (pos (fst a)) / 10)) as [D|D].
    { destruct (sink _ _ _ _ _) as [[? ?]|]; discriminate. }
    destruct Hf as [Hf|Hf]; [contradiction|]. apply D.
    specialize (Hc (pos (fst a)) Hp). pose proof (Hg (pos (fst a)) ltac:(lia)) as G.
    unfold above, below, tungstenDensity in *. replace (S (pos (fst a))) with (pos (fst a) + 1)%nat in G by lia.
    set (u := g.[pos (fst a) + 1] - g.[pos (fst a)]) in *. set (v := g.[pos (fst a) + 2] - g.[pos (fst a) + 1]) in *.
    assert (0 < u) by (unfold u; lra). assert (u * area <= v * area) by nra. assert (0 < u * area) by nra. lra.
  - cbn [fst]. apply c70_column in F; auto. destruct F as (A & B & _). auto.
Qed.
Example c70_event_ok : let cs := [(Column (-70) 0, noConc); (Column 0 0, noConc)] in
  Forall (fun cf => (pos (fst cf) + 2 < length gE)%nat) cs /\ coarsening gE /\ fires gE 1 (Column (-70) 0) /\
  exists cs', event2D gE 1 [] cs = Some (cs', false) /\ map (fun cf => pos (fst cf)) cs' = [2; 0]%nat.
Proof.
  intros cs. split; [repeat constructor; cbn; lia|]. split; [intros [|[|[|[|[|[|i]]]]]] H; cbn in *; try lra; lia|].
  split; [right; unfold below, tungstenDensity, gE; cbn; lra|].
  destruct c70_column_ok as [_ (n & f' & E & _)]. unfold event2D, cs. cbn [moveAll fst snd].
  assert (E' : exists f, move gE 1 [] (Column (-70) 0) noConc = Some (Moves (Column n 2) f)).
  { unfold move in *. cbn [count pos] in *. destruct (Rgt_dec _ _); [exfalso; revert r; unfold above, tungstenDensity, gE; cbn; lra|].
    destruct (Rlt_dec _ _) as [_|C]; [|exfalso; apply C; unfold above, tungstenDensity, gE; cbn; lra].
    destruct (sink gE 1 (length gE - 2 - 0) 0 (-70)) as [[a b]|]; [|discriminate]. inversion E; subst. eexists. reflexivity. }
  destruct E' as [f1 E1]. eexists. rewrite E1. unfold move. cbn [count pos].
  destruct (Rgt_dec 0 (above gE 1 0)) as [C|_]; [exfalso; revert C; unfold above, tungstenDensity, gE; cbn; lra|].
  destruct (Rlt_dec 0 (- above gE 1 0 / 10)) as [C|_]; [exfalso; revert C; unfold above, tungstenDensity, gE; cbn; lra|].
  split; reflexivity.
Qed.

(** ** Findings about the events *)
(** At the position where every surface starts, a surface with enough atoms to rise reads outside
    of the grid. *)
Theorem c70_first_rise_refuted g area initial c f : pos c = 0%nat -> count c > 62.8 * (g.[1] - g.[0]) * area ->
  move g area initial c f = None.
Proof.
  intros Hp Hc. change (count c > above g area 0) in Hc. unfold move. rewrite Hp. cbn [rise].
  destruct (Rgt_dec (count c) (above g area 0)); [reflexivity|contradiction].
Qed.
Example c70_first_rise_ok : pos (Column 63 0) = 0%nat /\ count (Column 63 0) > 62.8 * (gE.[1] - gE.[0]) * 1.
Proof. split; [reflexivity|]. cbn. lra. Qed.
(** A surface which rises from 1 to 0 pays for the cell and does not get it. *)
Theorem c70_rise_to_top_refuted g area initial c f : pos c = 1%nat -> increasing g -> 0 < area -> (3 < length g)%nat ->
  62.8 * (g.[2] - g.[1]) * area < count c <= 62.8 * (g.[2] - g.[0]) * area ->
  exists c', move g area initial c f = Some (Restarts c') /\ atoms g area c' = atoms g area c - 62.8 * (g.[2] - g.[1]) * area.
Proof.
  intros Hp Hg Ha Hl [A B]. exists (Column (count c - 62.8 * (g.[2] - g.[1]) * area) 1). unfold move. rewrite Hp.
  destruct (Rgt_dec _ _) as [_|C]; [|exfalso; apply C; unfold above, tungstenDensity; cbn [Nat.add]; lra].
  rewrite rise_go by (unfold above, tungstenDensity; cbn [Nat.add]; lra).
  rewrite rise_stop by (unfold above, tungstenDensity; cbn [Nat.add]; nra).
  split; [reflexivity|]. unfold atoms. rewrite Hp. cbn [count pos]. ring.
Qed.
Example c70_rise_to_top_ok : 62.8 * (gE.[2] - gE.[1]) * 1 < 100 <= 62.8 * (gE.[2] - gE.[0]) * 1. Proof. cbn. lra. Qed.
(** Nine tenths of a cell must be missing for an event, a tenth for a column to be taken along
    with the event of another column: it gives up a whole cell. *)
Theorem c70_early_refuted g area initial c f : increasing g -> 0 < area -> (pos c + 2 < length g)%nat ->
  g.[pos c + 2] - g.[pos c + 1] = g.[pos c + 1] - g.[pos c] ->
  - 0.9 * (62.8 * (g.[pos c + 1] - g.[pos c]) * area) <= count c < - 0.1 * (62.8 * (g.[pos c + 1] - g.[pos c]) * area) ->
  ~ fires g area c /\ exists c' f', move g area initial c f = Some (Moves c' f') /\ pos c' = S (pos c).
Proof.
  intros Hg Ha Hl He [A B]. pose proof (Hg (pos c) ltac:(lia)) as G. replace (S (pos c)) with (pos c + 1)%nat in G by lia.
  assert (P : 0 < (g.[pos c + 1] - g.[pos c]) * area) by (apply Rmult_lt_0_compat; lra).
  assert (U : above g area (pos c) = 62.8 * ((g.[pos c + 1] - g.[pos c]) * area)) by (unfold above, tungstenDensity; ring).
  assert (V : below g area (pos c) = above g area (pos c)) by (unfold above, below; rewrite He; reflexivity).
  split; [intros [H|H]; rewrite ?V, U in H; lra|].
  unfold move. destruct (Rgt_dec _ _) as [C|_]; [exfalso; rewrite U in C; lra|].
  destruct (Rlt_dec _ _) as [_|C]; [|exfalso; apply C; rewrite U; lra].
  destruct (length g - 2 - pos c)%nat as [|k] eqn:E; [lia|].
  rewrite sink_go by lra. rewrite sink_stop by (rewrite V, U; lra). do 2 eexists. split; reflexivity.
Qed.
Example c70_early_ok : gE.[0 + 2] - gE.[0 + 1] = gE.[0 + 1] - gE.[0] /\
  - 0.9 * (62.8 * (gE.[0 + 1] - gE.[0]) * 1) <= -10 < - 0.1 * (62.8 * (gE.[0 + 1] - gE.[0]) * 1).
Proof. cbn. lra. Qed.
(** With a cell below the surface much smaller than the one above, an event moves nothing. *)
Theorem c70_nothing_moves_refuted : exists c, increasing [0; 10; 11; 12; 13] /\ fires [0; 10; 11; 12; 13] 1 c /\
  forall f, move [0; 10; 11; 12; 13] 1 [] c f = Some Stays.
Proof.
  exists (Column (-60) 0). split; [intros [|[|[|[|i]]]] H; cbn in *; try lra; lia|].
  split; [right; unfold below, tungstenDensity; cbn; lra|]. intros f. unfold move. cbn [count pos].
  destruct (Rgt_dec _ _) as [C|_]; [exfalso; revert C; unfold above, tungstenDensity; cbn; lra|].
  destruct (Rlt_dec _ _) as [C|_]; [exfalso; revert C; unfold above, tungstenDensity; cbn; lra|reflexivity].
Qed.

(** ** The restart *)
Lemma fold_min_ge m0 (l : list (column * conc)) m : (m <= m0)%nat -> Forall (fun cf => (m <= pos (fst cf))%nat) l ->
  (m <= fold_left (fun m cf => if (pos (fst cf) <? m)%nat then pos (fst cf) else m) l m0)%nat.
Proof.
  intros H F. revert m0 H. induction F as [|cf r Hc Hr IH]; intros m0 H; cbn [fold_left]; [exact H|].
  apply IH. destruct (_ <? _)%nat; auto.
Qed.
Lemma move_pos g area initial c f : (1 <= pos c)%nat -> match move g area initial c f with
  | Some (Moves c' _) => (1 <= pos c')%nat | Some (Restarts c') => pos c' = pos c | _ => True end.
Proof.
  intros H. unfold move. destruct (Rgt_dec _ _).
  - destruct (rise g area (pos c) (count c) 0) as [[[n s] k]|]; auto. destruct (Nat.ltb_spec (s + 1) 2); cbn [pos]; auto; lia.
  - destruct (Rlt_dec _ _); auto. destruct (sink _ _ _ _ _) as [[n' s]|] eqn:E; auto. apply sink_spec in E. cbn [pos]. lia.
Qed.
Lemma moveAll_pos g area initial cs : Forall (fun cf => (1 <= pos (fst cf))%nat) cs -> forall r,
  moveAll g area initial cs = Some r -> Forall (fun cf => (1 <= pos (fst cf))%nat) (fst r).
Proof.
  induction 1 as [|cf l Hc Hl IH]; intros r H; cbn [moveAll] in H; [inversion H; constructor|].
  pose proof (move_pos g area initial (fst cf) (snd cf) Hc) as M.
  destruct (move g area initial (fst cf) (snd cf)) as [[|c f|c]|]; try discriminate.
  - destruct (moveAll g area initial l) as [[l' b]|] eqn:F; inversion H; subst. cbn [fst]. constructor; auto. apply (IH (l', b)); auto.
  - destruct (moveAll g area initial l) as [[l' b]|] eqn:F; inversion H; subst. cbn [fst]. constructor; auto. apply (IH (l', b)); auto.
  - inversion H; subst. cbn [fst]. constructor; auto. cbn [fst]. lia.
Qed.
(** Once every column has retreated, every event of the surface puts all the concentrations back
    to those of the start of the simulation, and the columns stay retreated. *)
Theorem c70_reset_refuted g area initial ro cs cs' : Forall (fun cf => (1 <= pos (fst cf))%nat) cs ->
  surfaceEvent g area initial ro cs = Some cs' ->
  Forall (fun cf => (1 <= pos (fst cf))%nat /\
    forall x l, snd cf x l = if (pos (fst cf) + 1 <=? x)%nat && (x <? length g - 2 - ro)%nat then lookup initial l else 0) cs'.
Proof.
  intros Hp H. unfold surfaceEvent in H. destruct (event2D g area initial cs) as [[cs1 b]|] eqn:E; [|discriminate].
  inversion H; subst. clear H.
  assert (A : Forall (fun cf => (1 <= pos (fst cf))%nat) cs1 /\ b = true).
  { unfold event2D in E. destruct (moveAll g area initial cs) as [[cs2 [|]]|] eqn:F; try discriminate.
    - inversion E; subst. split; [|reflexivity]. exact (moveAll_pos _ _ _ _ Hp _ F).
    - pose proof (moveAll_pos _ _ _ _ Hp _ F) as P. cbn [fst] in P. destruct (lowest cs2) as [m|] eqn:L; [|discriminate].
      inversion E; subst. split; [exact P|]. unfold lowest in L. destruct cs1 as [|cf r]; [discriminate|]. inversion L; subst.
      apply Nat.ltb_lt. inversion P; subst. apply (fold_min_ge _ _ 1); [destruct (_ <? _)%nat; auto|auto]. }
  destruct A as [A ->]. unfold continue. cbn [snd fst]. rewrite Forall_map. eapply Forall_impl; [|exact A].
  intros cf Hc. cbn [fst snd]. split; [exact Hc|]. intros x l. reflexivity.
Qed.
Example c70_reset_ok : exists cs', Forall (fun cf => (1 <= pos (fst cf))%nat) [(Column 0 1, fun _ _ : nat => 7)] /\
  surfaceEvent gE 1 [] 0 [(Column 0 1, fun _ _ : nat => 7)] = Some cs'.
Proof.
  eexists. split; [repeat constructor|]. unfold surfaceEvent, event2D. cbn [moveAll fst snd]. unfold move. cbn [count pos].
  destruct (Rgt_dec _ _) as [C|_]; [exfalso; revert C; unfold above, tungstenDensity, gE; cbn; lra|].
  destruct (Rlt_dec _ _) as [C|_]; [exfalso; revert C; unfold above, tungstenDensity, gE; cbn; lra|reflexivity].
Qed.
(** So it is at every event from then on, whatever the simulation does in between to the counts and
    to the concentrations. *)
Theorem c70_forever_refuted g area initial ro between : forall cs cs', between <> [] ->
  (forall b, In b between -> forall l, map (fun cf => pos (fst cf)) (b l) = map (fun cf => pos (fst cf)) l) ->
  Forall (fun cf => (1 <= pos (fst cf))%nat) cs -> events g area initial ro between cs = Some cs' ->
  Forall (fun cf => forall x l, (pos (fst cf) < x < length g - 2 - ro)%nat -> snd cf x l = lookup initial l) cs'.
Proof.
  induction between as [|b r IH]; intros cs cs' Hn Hb Hp H; [contradiction|]. cbn [events] in H.
  assert (Q : Forall (fun cf => (1 <= pos (fst cf))%nat) (b cs)).
  { pose proof (Hb b (or_introl eq_refl) cs) as E. rewrite <- (Forall_map (fun cf => pos (fst cf)) (fun n => (1 <= n)%nat)).
    rewrite E. apply Forall_map. exact Hp. }
  destruct (surfaceEvent g area initial ro (b cs)) as [cs1|] eqn:E; [|discriminate].
  pose proof (c70_reset_refuted _ _ _ _ _ _ Q E) as R. destruct r as [|b2 r2].
  - inversion H; subst. eapply Forall_impl; [|exact R]. intros cf [_ C] x l Hx. rewrite C.
    destruct (Nat.leb_spec (pos (fst cf) + 1) x); [|lia]. destruct (Nat.ltb_spec x (length g - 2 - ro)); [reflexivity|lia].
  - apply (IH cs1 cs'); [discriminate|intros b' Hb'; apply Hb; right; exact Hb'| |exact H].
    eapply Forall_impl; [|exact R]. intros cf [C _]. exact C.
Qed.
(** Two columns at the start lose a cell each: the helium deep in the material is gone. *)
Theorem c70_lost_refuted : exists cs cs' cf,
  cs = [(Column (-60) 0, fun x _ => INR x); (Column (-60) 0, fun x _ => INR x)] /\
  fires gE 1 (Column (-60) 0) /\ surfaceEvent gE 1 [] 0 cs = Some cs' /\ In cf cs' /\ pos (fst cf) = 1%nat /\
  (forall x, snd cf x 0%nat = 0) /\ length cs' = 2%nat /\ (forall b, In b cs' -> fst b = fst cf).
Proof.
  assert (M : forall f, move gE 1 [] (Column (-60) 0) f = Some (Moves (Column (-60 + below gE 1 0) 1) (erase 0 1 f))).
  { intros f. unfold move. cbn [count pos].
    destruct (Rgt_dec _ _) as [C|_]; [exfalso; revert C; unfold above, tungstenDensity, gE; cbn; lra|].
    destruct (Rlt_dec _ _) as [_|C]; [|exfalso; apply C; unfold above, tungstenDensity, gE; cbn; lra].
    change (length gE - 2 - 0)%nat with 6%nat. rewrite sink_go by lra.
    rewrite sink_stop by (unfold below, tungstenDensity, gE; cbn; lra). reflexivity. }
  do 3 eexists. split; [reflexivity|]. split; [right; unfold below, tungstenDensity, gE; cbn; lra|].
  unfold surfaceEvent, event2D. cbn [moveAll fst snd]. rewrite !M. cbn [lowest fold_left fst pos]. change (1 <? 1)%nat with false. cbn iota.
  change (0 <? 1)%nat with true. unfold continue. cbn [snd fst map].
  split; [reflexivity|]. split; [left; reflexivity|]. split; [reflexivity|]. split.
  - intros x. cbn [snd]. unfold start. cbn [fold_left]. destruct (_ && _)%bool; reflexivity.
  - split; [reflexivity|]. intros b [<-|[<-|[]]]; reflexivity.
Qed.

(** ** Three dimensions *)
(** Every event which moves the surface without a restart on the way reads outside of the vector of
    positions, unless there are more than 2^32 - 1 points in z. *)
Theorem c70_3d_refuted g area nZ initial cs cs' : (nZ <= 4294967295)%N ->
  moveAll g area initial cs = Some (cs', false) -> event3D g area nZ initial cs = None.
Proof.
  intros H E. unfold event3D. rewrite E. destruct (N.ltb_spec 4294967295 nZ); [lia|reflexivity].
Qed.
(** Where the three-dimensional event goes on, it ends the solve. *)
Theorem c70_3d_only g area nZ initial cs cs' b : (nZ <= 4294967295)%N ->
  event3D g area nZ initial cs = Some (cs', b) -> moveAll g area initial cs = Some (cs', true) /\ b = true.
Proof.
  intros H E. unfold event3D in E. destruct (moveAll g area initial cs) as [[cs1 [|]]|] eqn:F; try discriminate.
  - inversion E; subst. split; reflexivity.
  - destruct (N.ltb_spec 4294967295 nZ); [lia|discriminate].
Qed.
Print Assumptions c70_3d_only.
Example c70_3d_only_ok : exists cs', event3D gE 1 10 [] [(Column 100 1, noConc)] = Some (cs', true).
Proof.
  destruct (c70_rise_to_top_refuted gE 1 [] (Column 100 1) noConc) as (c' & E & _); try reflexivity; try lra.
  - exact gE_inc.
  - cbn. lia.
  - cbn. lra.
  - eexists. unfold event3D. cbn [moveAll fst snd]. rewrite E. reflexivity.
Qed.
Example c70_3d_ok : exists cs', (10 <= 4294967295)%N /\ moveAll gE 1 [] [(Column 0 0, noConc)] = Some (cs', false).
Proof.
  eexists. split; [lia|]. cbn [moveAll fst snd]. unfold move. cbn [count pos].
  destruct (Rgt_dec _ _) as [C|_]; [exfalso; revert C; unfold above, tungstenDensity, gE; cbn; lra|].
  destruct (Rlt_dec _ _) as [C|_]; [exfalso; revert C; unfold above, tungstenDensity, gE; cbn; lra|reflexivity].
Qed.
(** ** The counts before the event *)
(** What a column of the given area gains in a time step: [out] interstitials per area and time
    arrive, yield * amplitude atoms per area and time are sputtered. *)
Definition gained (area out yield amplitude dt : R) : R := area * (out - yield * amplitude) * dt.
Theorem c70_charge yield amplitude hy dt out n :
  charge2D yield amplitude hy dt (hy * out) n = n + gained hy out yield amplitude dt.
Proof. unfold charge2D, gained. ring. Qed.
Example c70_charge_ok : gained 2 10 0.1 50 3 = 30. Proof. unfold gained. lra. Qed.
Theorem c70_charge_3d_refuted yield amplitude hy hz dt out n : 0 < yield -> 0 < amplitude -> 0 < dt ->
  (charge3D yield amplitude dt (hy * hz * out) n = n + gained (hy * hz) out yield amplitude dt <-> hy * hz = 1).
Proof.
  intros Hy Ha Hd. unfold charge3D, gained. assert (P : 0 < yield * amplitude * dt) by (repeat apply Rmult_lt_0_compat; auto).
  split; intros H; [|rewrite H; ring]. assert (E : (hy * hz - 1) * (yield * amplitude * dt) = 0) by lra.
  apply Rmult_integral in E. destruct E; lra.
Qed.
Example c70_charge_3d_ok : charge3D 0.1 50 3 (2 * 2 * 10) 0 = 105 /\ 0 + gained (2 * 2) 10 0.1 50 3 = 60.
Proof. unfold charge3D, gained. lra. Qed.

(** ** Interstitials which leave through a side *)
(** [q x] is what leaves per unit of width of the cell at point [x] of the neighbour column; all of
    the points of the neighbour which are higher than the surface of this column lose. *)
Definition lateral (g : list R) (hy : R) (q : nat -> R) (s sn : nat) : R :=
  Rsum (seq (S sn) (s - sn)) (fun x => (g.[x + 1] - g.[x - 1]) / 2 / hy * q x).
Lemma counted_self s : (1 <= s)%nat -> counted s s = [s].
Proof.
  intros H. destruct s as [|s]; [lia|]. cbn [counted]. rewrite Nat.leb_refl. f_equal.
  destruct s as [|s]; cbn [counted].
  - reflexivity.
  - destruct (Nat.leb_spec (S (S s)) (S s)); [lia|reflexivity].
Qed.
Theorem c70_side g hy q s sn : (s <= sn + 1)%nat -> sideFlux g hy q s sn = lateral g hy q s sn.
Proof.
  intros H. unfold sideFlux, lateral. destruct (Nat.ltb_spec sn s) as [L|L].
  - rewrite counted_self by lia. assert (s = S sn) by lia. subst. replace (S sn - sn)%nat with 1%nat by lia.
    cbn [seq fold_left Rsum]. lra.
  - replace (s - sn)%nat with 0%nat by lia. reflexivity.
Qed.
Example c70_side_ok : sideFlux gE 1 (fun _ => 3) 2 1 = 3 /\ sideFlux gE 1 (fun _ => 3) 1 1 = 0.
Proof. rewrite !c70_side by lia. unfold lateral, gE. cbn. lra. Qed.
(** A step of more than one point: only its lowest point is counted. *)
Theorem c70_side_refuted g hy q s sn : increasing g -> 0 < hy -> (s + 1 < length g)%nat -> (sn + 1 < s)%nat ->
  (forall x, (sn < x <= s)%nat -> 0 < q x) -> sideFlux g hy q s sn < lateral g hy q s sn.
Proof.
  intros Hg Hh Hl Hs Hq. unfold sideFlux, lateral. destruct (Nat.ltb_spec sn s); [|lia]. rewrite counted_self by lia. cbn [fold_left].
  assert (W : forall x, (sn < x <= s)%nat -> 0 < (g.[x + 1] - g.[x - 1]) / 2 / hy * q x).
  { intros x Hx. apply Rmult_lt_0_compat; [|apply Hq; lia]. pose proof (Hg (x - 1)%nat ltac:(lia)) as A. pose proof (Hg x ltac:(lia)) as B.
    replace (S (x - 1)) with x in A by lia. replace (S x) with (x + 1)%nat in B by lia. apply Rdiv_lt_0_compat; lra. }
  replace (s - sn)%nat with (S (S (s - sn - 2))) by lia. rewrite seq_S. replace (S sn + S (s - sn - 2))%nat with s by lia.
  rewrite Rsum_app. cbn [seq Rsum]. pose proof (W (S sn) ltac:(lia)) as A.
  match goal with |- _ < ?a + Rsum ?l ?f + _ => assert (B : 0 <= Rsum l f) end.
  { assert (K : forall l, (forall x, In x l -> (sn < x <= s)%nat) -> 0 <= Rsum l (fun x => (g.[x + 1] - g.[x - 1]) / 2 / hy * q x)).
    { induction l as [|y l IH]; intros Hy; cbn [Rsum]; [lra|]. pose proof (W y (Hy y (or_introl eq_refl))).
      specialize (IH (fun x Hx => Hy x (or_intror Hx))). lra. }
    apply K. intros x Hx. apply in_seq in Hx. lia. }
  lra.
Qed.
Example c70_side_refuted_ok : (0 + 1 < 3)%nat /\ sideFlux gE 1 (fun _ => 1) 3 0 = 1 /\ lateral gE 1 (fun _ => 1) 3 0 = 3.
Proof. split; [lia|]. unfold sideFlux, lateral, gE. cbn. split; lra. Qed.

(** ** C71: counts handed over *)
(** Everything counted during the parts of the run. *)
Definition counted_all {A} (parts : list (A -> A)) (m : A) : A := fold_left (fun m f => f m) parts m.
Theorem c71_three A (parts : list (A -> A)) : forall m kept, run3 parts m kept = Some (counted_all parts m).
Proof. induction parts as [|f r IH]; intros m kept; cbn [run3]; [reflexivity|]. unfold keep3, set3. apply IH. Qed.
Theorem c71_first A (f : A -> A) m : run12 [f] m [] = Some (counted_all [f] m).
Proof. reflexivity. Qed.
(** In one and two dimensions, what was counted after the first hand-over is forgotten at every later one. *)
Theorem c71_later_refuted A (f : A -> A) r m : run12 (f :: r) m [] = Some (f m).
Proof.
  cbn [run12 keep12 set12 app nth_error].
  assert (K : forall (l : list (A -> A)) m0 kept, run12 l m0 (m0 :: kept) = Some m0).
  { intros l. induction l as [|h r' IH]; intros m0 kept; cbn [run12]; [reflexivity|]. cbn [keep12 app set12 nth_error]. apply IH. }
  apply K.
Qed.
Example c71_ok : let parts := [fun x => x + 1; fun x => x + 2; fun x => x + 4] in
  run12 parts 0 [] = Some (0 + 1) /\ run3 parts 0 None = Some (0 + 1 + 2 + 4).
Proof. split; reflexivity. Qed.
Theorem c71_burst_refuted A (zero : A) f r m : runBurst zero (f :: r) m = zero.
Proof. cbn [runBurst]. induction r; auto. Qed.

Print Assumptions c70_column. Print Assumptions c70_concentrations. Print Assumptions c70_event.
Print Assumptions c70_first_rise_refuted. Print Assumptions c70_rise_to_top_refuted. Print Assumptions c70_early_refuted.
Print Assumptions c70_nothing_moves_refuted. Print Assumptions c70_reset_refuted. Print Assumptions c70_forever_refuted. Print Assumptions c70_lost_refuted.
Print Assumptions c70_3d_refuted. Print Assumptions c70_charge. Print Assumptions c70_charge_3d_refuted.
Print Assumptions c70_side. Print Assumptions c70_side_refuted.
Print Assumptions c71_three. Print Assumptions c71_first. Print Assumptions c71_later_refuted. Print Assumptions c71_burst_refuted.
