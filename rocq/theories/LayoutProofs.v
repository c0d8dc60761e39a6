(** Proofs about inspecting and editing layouts. *)
From Verif Require Import Base ArgsSpec ArgsModel ArgsOrder ArgsLayout ArgsProofs LayoutSpec LayoutModel.
From Coq Require Import Lia.
Local Open Scope res_scope.

(** ** Compiling, also with equal paths *)

Lemma link_any cs : ordered_paths (map c_path cs) ->
  exists s, link cs = Ok s /\ map d_info s = cs /\ forall i d, nth_error s i = Some d -> up_ok (map c_path cs) i (d_up d).
Proof.
  intros S'. unfold link.
  destruct (link_loop_ok (map c_path cs) S' (map c_path cs) []) as (ups & E & L & U).
  { reflexivity. } { cbn. lia. } { intros [|j] o H; discriminate. }
  rewrite E. cbn [bind]. eexists. split; [reflexivity|]. rewrite map_length in L. split.
  - rewrite map_map. clear - L. revert ups L. induction cs as [|c cs IH]; intros [|u ups] L; try discriminate; [reflexivity|].
    cbn in *. f_equal. apply IH. lia.
  - intros i d H. rewrite nth_error_map in H. destruct (nth_error (combine cs ups) i) as [[c up]|] eqn:Hc; [|discriminate].
    cbn in H. injection H as <-. cbn. apply nth_combine in Hc. apply U. apply Hc.
Qed.

Lemma commands_yield s : yields command_next s (map d_info s).
Proof. induction s as [|d s IH]; [now constructor|]. cbn. now apply yields_item with (it' := s). Qed.
Lemma flags_yield (l : list flag) : yields flag_next l l.
Proof. induction l as [|f l IH]; [now constructor|]. now apply yields_item with (it' := l). Qed.

Lemma up_ok_next ps i o p : nth_error ps i = Some p -> up_ok ps i o ->
  (forall j, o = Some j <-> next_up ps i j) /\ (o = None <-> forall j, ~ next_up ps i j).
Proof.
  intros Hp (U1 & U2).
  assert (A : forall j, o = Some j -> next_up ps i j).
  { intros j ->. destruct U1 as (L & P).
    assert (Hi : i < length ps) by (apply nth_error_Some; congruence).
    destruct (nth_error ps j) as [q|] eqn:Hq; [|apply nth_error_None in Hq; lia].
    split; [exact L|]. split.
    - exists p, q. auto.
    - intros k p' q' Lk Hp' Hq' Pk. exact (U2 k q' p' Lk Hq' Hp' Pk). }
  assert (B : forall j, next_up ps i j -> o = Some j).
  { intros j (L & (p' & q' & Hp' & Hq' & P) & M). pose proof (U2 j q' p' L Hq' Hp' P) as K.
    destruct o as [k|]; [|destruct K]. destruct (A k eq_refl) as (L' & (p2 & q2 & Hp2 & Hq2 & P2) & _).
    pose proof (M k p2 q2 L' Hp2 Hq2 P2). f_equal. lia. }
  split; [intros j; split; auto|]. split.
  - intros -> j N. discriminate (B j N).
  - intros N. destruct o as [j|]; [|reflexivity]. destruct (N j (A j eq_refl)).
Qed.

Lemma sorted_preorder ps : ordered_paths ps -> preorder ps.
Proof.
  intros S. pose proof (sorted_nth _ _ S) as O.
  split; [|split].
  - intros i j k p q r (L1 & L2) Hi Hj Hk P.
    destruct (Nat.eq_dec i j) as [->|N1]; [rewrite Hi in Hj; injection Hj as ->; apply prefix_refl|].
    destruct (Nat.eq_dec j k) as [->|N2]; [rewrite Hj in Hk; injection Hk as ->; exact P|].
    apply (prefix_between p q r P).
    + apply (O i j); auto. lia.
    + apply (O j k); auto. lia.
  - intros i j p q L Hi Hj (P & N). apply N. apply (le_anti _ good_path).
    + now apply prefix_le.
    + exact (O i j p q L Hi Hj).
  - intros i j a x y p q L Hi Hj. pose proof (O i j _ _ L Hi Hj) as H. unfold le_path in H.
    assert (E : forall a, path_cmp (a ++ x :: p) (a ++ y :: q) = path_cmp (x :: p) (y :: q)).
    { clear. induction a as [|z a IH]; [reflexivity|]. cbn. rewrite (cmp_refl _ good_str). exact IH. }
    rewrite E in H. cbn in H. destruct (str_cmp x y); [discriminate|discriminate|exact H].
Qed.

(** ** Following the links *)

Definition up_at (ups : list (option nat)) (i : nat) : res (option nat) :=
  match nth_error ups i with Some o => Ok o | None => Panic end.

Lemma climbs_all s ps : map c_path (map d_info s) = ps -> ordered_paths ps -> NoDup ps ->
  (forall i d, nth_error s i = Some d -> up_ok ps i (d_up d)) ->
  forall i p, nth_error ps i = Some p ->
  exists l, climbs (up_from s) i l
    /\ Forall (fun j => j < i) l
    /\ (exists qs, Forall2 (fun j q => nth_error ps j = Some q) l qs
        /\ StronglySorted (fun a b => length b < length a) qs
        /\ forall q, In q qs <-> In q ps /\ prefix q p /\ q <> p).
Proof.
  intros E S D U. induction i as [i IH] using (well_founded_induction Nat.lt_wf_0). intros p Hp.
  assert (Hd : exists d, nth_error s i = Some d).
  { rewrite <- E, map_map, nth_error_map in Hp. destruct (nth_error s i) as [d|]; [eauto|discriminate]. }
  destruct Hd as (d & Hd). pose proof (U i d Hd) as Ud. destruct (up_ok_next ps i (d_up d) p Hp Ud) as (A & B).
  assert (Uf : up_from s i = Ok (d_up d)) by (unfold up_from; now rewrite Hd).
  assert (Below : forall q, In q ps -> prefix q p -> q <> p -> exists k, k < i /\ nth_error ps k = Some q).
  { intros q I P N. apply In_nth_error in I as (k & Hk). exists k. split; [|exact Hk].
    destruct (Nat.lt_trichotomy k i) as [L|[->|L]]; [exact L|congruence|].
    exfalso. apply N. apply (le_anti _ good_path); [now apply prefix_le|exact (sorted_nth _ _ S i k p q L Hp Hk)]. }
  destruct (d_up d) as [j|] eqn:Ed.
  - destruct (proj1 (A j) eq_refl) as (L & (p' & q & Hp' & Hq & P) & M). rewrite Hp in Hp'. injection Hp' as <-.
    destruct (IH j L q Hq) as (l & C & F & qs & F2 & St & X).
    assert (Nq : q <> p).
    { intros ->. assert (i = j); [|lia]. apply (proj1 (NoDup_nth_error ps) D).
      - apply nth_error_Some. congruence.
      - congruence. }
    exists (j :: l). split; [now apply climbs_up with (j := j)|]. split.
    { constructor; [exact L|]. eapply Forall_impl; [|exact F]. cbn. lia. }
    exists (q :: qs). split; [now constructor|]. split.
    + constructor; [exact St|]. apply Forall_forall. intros q' I'. apply X in I' as (I1 & P1 & N1).
      pose proof (prefix_length _ _ P1). destruct (Nat.eq_dec (length q') (length q)); [|lia].
      exfalso. apply N1. apply prefix_same; [exact P1|lia].
    + intros q'. split.
      * intros [<-|I']; [split; [eapply nth_error_In; eauto|auto]|]. apply X in I' as (I1 & P1 & N1).
        split; [exact I1|]. split; [eapply prefix_trans; eauto|]. intros ->.
        apply N1. apply prefix_same; [exact P1|now apply prefix_length].
      * intros (I1 & P1 & N1). destruct (Below q' I1 P1 N1) as (k & Lk & Hk).
        pose proof (M k p q' Lk Hp Hk P1) as Lkj. destruct (Nat.eq_dec k j) as [->|Nk]; [left; congruence|].
        right. apply X. split; [exact I1|]. split.
        -- apply (prefix_between q' q p P1); [apply (sorted_nth _ _ S k j); auto; lia|now apply prefix_le].
        -- intros ->. apply Nk. apply (proj1 (NoDup_nth_error ps) D); [|congruence]. apply nth_error_Some. congruence.
  - exists []. split; [now constructor|]. split; [constructor|]. exists []. split; [constructor|]. split; [constructor|].
    intros q. split; [intros []|]. intros (I1 & P1 & N1). destruct (Below q I1 P1 N1) as (k & Lk & Hk).
    destruct Ud as (_ & U2). exact (U2 k q p Lk Hk Hp P1).
Qed.

(** ** Searching *)

Lemma std_loop_ok l a b c : l = repeat Lt a ++ repeat Eq b ++ repeat Gt c ->
  forall fuel base size, size <= fuel -> 1 <= size -> base + size <= length l -> a + b <= base + size ->
  (base = 0 \/ base < a + b) ->
  std_loop fuel l base size = a + b - 1.
Proof.
  intros El. assert (G : forall k, k < length l -> (nth_error l k = Some Gt <-> a + b <= k)).
  { intros k Lk. assert (Ll : length l = a + b + c) by (rewrite El, !app_length, !repeat_length; lia).
    destruct (Nat.lt_ge_cases k a) as [H1|H1].
    - rewrite El, nth_error_app1 by (rewrite repeat_length; lia). rewrite nth_error_repeat by lia. split; [discriminate|lia].
    - rewrite El, nth_error_app2 by (rewrite repeat_length; lia). rewrite repeat_length.
      destruct (Nat.lt_ge_cases k (a + b)) as [H2|H2].
      + rewrite nth_error_app1 by (rewrite repeat_length; lia). rewrite nth_error_repeat by lia. split; [discriminate|lia].
      + rewrite nth_error_app2 by (rewrite repeat_length; lia). rewrite repeat_length, nth_error_repeat by lia. split; auto. }
  induction fuel as [|fuel IH]; intros base size H1 H2 H3 H4 H5; [lia|]. cbn [std_loop].
  destruct (Nat.leb_spec size 1) as [Z|Z]; [lia|].
  assert (Hh : 1 <= size / 2 < size) by (split; [apply Nat.div_le_lower_bound; lia|apply Nat.div_lt; lia]).
  assert (Lm : base + size / 2 < length l) by lia. pose proof (G _ Lm) as Gm.
  destruct (nth_error l (base + size / 2)) as [[| |]|] eqn:N.
  - apply IH; try lia. right. destruct (Nat.lt_ge_cases (base + size / 2) (a + b)) as [|Q]; [assumption|]. apply Gm in Q. discriminate.
  - apply IH; try lia. right. destruct (Nat.lt_ge_cases (base + size / 2) (a + b)) as [|Q]; [assumption|]. apply Gm in Q. discriminate.
  - assert (a + b <= base + size / 2) by now apply Gm.
    apply IH; try lia.
  - apply nth_error_None in N. lia.
Qed.

Lemma std_search_locates : locates std_search.
Proof.
  intros l (a & b & c & El).
  assert (Ll : length l = a + b + c) by (rewrite El, !app_length, !repeat_length; lia).
  assert (NL : forall k, k < a -> nth_error l k = Some Lt).
  { intros k H. rewrite El, nth_error_app1 by (rewrite repeat_length; lia). now apply nth_error_repeat. }
  assert (NE : forall k, a <= k < a + b -> nth_error l k = Some Eq).
  { intros k H. rewrite El, nth_error_app2, repeat_length by (rewrite repeat_length; lia).
    rewrite nth_error_app1 by (rewrite repeat_length; lia). apply nth_error_repeat. lia. }
  assert (NG : forall k, a + b <= k < a + b + c -> nth_error l k = Some Gt).
  { intros k H. rewrite El, nth_error_app2, repeat_length by (rewrite repeat_length; lia).
    rewrite nth_error_app2, repeat_length by (rewrite repeat_length; lia). apply nth_error_repeat. lia. }
  assert (NI : b = 0 -> ~ In Eq l).
  { intros -> I. rewrite El in I. cbn in I. apply in_app_iff in I as [I|I]; apply repeat_spec in I; discriminate. }
  assert (Gr : forall i k x, a + b <= i -> i <= k -> nth_error l k = Some x -> x = Gt).
  { intros i k x H1 H2 H3. assert (k < length l) by (apply nth_error_Some; congruence). rewrite NG in H3 by lia. congruence. }
  unfold std_search. destruct l as [|x l'] eqn:E0.
  { split; [intros []|]. split; [intros; lia|]. split; [intros [|k]; discriminate|cbn; lia]. }
  rewrite <- E0 in *. clear x l' E0.
  assert (P : std_loop (length l) l 0 (length l) = a + b - 1).
  { destruct (Nat.eq_dec (length l) 0) as [Z|Z]; [rewrite Z; cbn; lia|].
    apply (std_loop_ok l a b c El); lia. }
  rewrite P. destruct (Nat.eq_dec b 0) as [->|Nb].
  - destruct (Nat.eq_dec a 0) as [->|Na].
    + cbn [Nat.add Nat.sub]. destruct (Nat.eq_dec c 0) as [->|Nc].
      * destruct l; [|discriminate]. cbn. split; [intros []|]. split; [intros; lia|]. split; [intros [|k]; discriminate|lia].
      * rewrite NG by lia. split; [auto|]. split; [intros; lia|]. split; [|lia]. intros k x. apply Gr. lia.
    + rewrite NL by lia. split; [auto|]. split; [intros k Hk; apply NL; lia|]. split; [|lia].
      intros k x. apply Gr. lia.
  - rewrite NE by lia. apply NE. lia.
Qed.

Lemma compare_ordered {A K} (cmp : K -> K -> comparison) (k : A -> K) l (p : K) : good cmp ->
  StronglySorted (fun x y => cmp (k x) (k y) <> Gt) l -> ordered (map (fun x => cmp (k x) p) l).
Proof.
  intros G S. apply (ordered_map _ (fun x => cmp (k x) p) _ S). intros x y H. exact (rank_mono cmp G _ _ p H).
Qed.

Lemma search_ok {A K} (cmp : K -> K -> comparison) (k : A -> K) l (p : K) bs : good cmp -> locates bs ->
  StronglySorted (fun x y => cmp (k x) (k y) <> Gt) l ->
  match bs (map (fun x => cmp (k x) p) l) with
  | inl i => exists x, nth_error l i = Some x /\ k x = p
  | inr i => (forall x, In x l -> k x <> p) /\ i <= length l
             /\ (forall j x, nth_error l j = Some x -> if j <? i then cmp (k x) p = Lt else cmp (k x) p = Gt)
  end.
Proof.
  intros G B S. pose proof (B _ (compare_ordered cmp k l p G S)) as H.
  destruct (bs (map (fun x => cmp (k x) p) l)) as [i|i].
  - rewrite nth_error_map in H. destruct (nth_error l i) as [x|]; [|discriminate]. injection H as H.
    exists x. split; [reflexivity|]. now apply (g_eq _ G).
  - destruct H as (N & L & R & Le). rewrite map_length in Le. split; [|split; [exact Le|]].
    + intros x I E. apply N. apply in_map_iff. exists x. split; [|exact I]. now apply (g_eq _ G).
    + intros j x Hj. destruct (Nat.ltb_spec j i) as [Lt|Ge].
      * specialize (L j Lt). rewrite nth_error_map, Hj in L. cbn in L. congruence.
      * apply (R j); [exact Ge|]. now rewrite nth_error_map, Hj.
Qed.

(** ** Editing *)

Lemma link_loop_length ps : forall todo ups ups', link_loop ps todo ups = Ok ups' -> length ups' = length ups + length todo.
Proof.
  induction todo as [|p todo IH]; intros ups ups' H; cbn [link_loop] in H; [injection H as <-; cbn; lia|].
  destruct (climb _ _ _ _ _) as [o| |]; cbn [bind] in H; try discriminate. rewrite (IH _ _ H), app_length. cbn. lia.
Qed.

Lemma link_iff cs s : link cs = Ok s <->
  map d_info s = cs /\ link_loop (map c_path cs) (map c_path cs) [] = Ok (map d_up s).
Proof.
  unfold link. split.
  - destruct (link_loop (map c_path cs) (map c_path cs) []) as [ups| |] eqn:E; cbn [bind]; try discriminate.
    intros [= <-]. apply link_loop_length in E. rewrite map_length in E. cbn in E. rewrite !map_map.
    assert (Q : map (fun x : command * option nat => d_info (let '(c, up) := x in mkDef c up)) (combine cs ups) = cs
      /\ map (fun x : command * option nat => d_up (let '(c, up) := x in mkDef c up)) (combine cs ups) = ups).
    { revert ups E. induction cs as [|c cs IH]; intros [|u ups] E; try discriminate; [split; reflexivity|].
      cbn. destruct (IH ups) as (-> & ->); [cbn in E; lia|]. split; reflexivity. }
    destruct Q as (-> & ->). split; reflexivity.
  - intros (<- & ->). cbn [bind]. f_equal. induction s as [|[c u] s IH]; [reflexivity|]. cbn. now rewrite IH.
Qed.

Lemma map_upd {A B} (f : A -> B) l i x : map f (upd l i x) = upd (map f l) i (f x).
Proof. unfold upd. now rewrite map_app, firstn_map, map_cons, skipn_map. Qed.
Lemma upd_same {A} (l : list A) i x : nth_error l i = Some x -> upd l i x = l.
Proof.
  intros H. unfold upd. rewrite <- (firstn_skipn i l) at 3. f_equal.
  revert l H. induction i as [|i IH]; intros [|y l] H; try discriminate; cbn in *; [congruence|]. apply IH, H.
Qed.
Lemma in_upd {A} (l : list A) i x y : In y (upd l i x) -> y = x \/ In y l.
Proof.
  unfold upd. intros H. apply in_app_iff in H as [H|[H|H]]; [right|left; auto|right].
  - rewrite <- (firstn_skipn i l). apply in_app_iff. now left.
  - rewrite <- (firstn_skipn (S i) l). apply in_app_iff. now right.
Qed.

(** Sorted by name, by a property of the list of names. *)
Lemma sorted_keys {A K} (R : K -> K -> Prop) (k : A -> K) l :
  StronglySorted (fun x y => R (k x) (k y)) l <-> StronglySorted R (map k l).
Proof.
  split; [apply sorted_map|]. induction l as [|x l IH]; intros H; [constructor|]. cbn in H. inversion H; subst.
  constructor; [auto|]. rewrite Forall_forall in *. intros y Hy. apply H3, in_map, Hy.
Qed.
