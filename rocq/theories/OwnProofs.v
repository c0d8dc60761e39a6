(** Proofs about ownership (OwnModel.v against OwnSpec.v). *)
From Coq Require Import Permutation.
From Verif Require Import Base OwnSpec OwnModel.

Lemma far_sym a b : far a b -> far b a.
Proof. unfold far. lia. Qed.

Definition apart (h : heap) : Prop :=
  forall i j c d, i <> j -> nth_error h i = Some c -> nth_error h j = Some d ->
    live c = true -> live d = true -> far (base c) (base d).

Lemma apart_tail c h : apart (c :: h) -> apart h.
Proof. intros A i j d e N Hi Hj. apply (A (S i) (S j)); auto. Qed.

Lemma at_data_found h : apart h -> forall i c, nth_error h i = Some c -> live c = true ->
  at_data h (data c) = Some c.
Proof.
  induction h as [|d h IH]; intros A i c Hi L; [destruct i; discriminate|].
  cbn [at_data]. destruct i as [|i].
  - injection Hi as ->. rewrite L, N.eqb_refl. reflexivity.
  - cbn [nth_error] in Hi. destruct (live d) eqn:D; cbn [andb].
    + destruct (N.eqb_spec (data d) (data c)) as [E|_].
      * exfalso. assert (F : far (base d) (base c)) by (apply (A 0 (S i)); auto).
        unfold far, data in *. unfold header in *. destruct (counted d), (counted c); lia.
      * apply (IH (apart_tail _ _ A) i c Hi L).
    + apply (IH (apart_tail _ _ A) i c Hi L).
Qed.

Lemma at_base_found h f : apart h -> forall i c, nth_error h i = Some c -> live c = true ->
  at_base h (base c) f = match f c with Some (c', e) => Some (upd h i c', e) | None => None end.
Proof.
  induction h as [|d h IH]; intros A i c Hi L; [destruct i; discriminate|].
  cbn [at_base]. destruct i as [|i].
  - injection Hi as ->. rewrite L, N.eqb_refl. cbn [andb]. destruct (f c) as [(c', e)|]; reflexivity.
  - cbn [nth_error] in Hi. replace (live d && (base d =? base c)%N) with false.
    + rewrite (IH (apart_tail _ _ A) i c Hi L). destruct (f c) as [(c', e)|]; reflexivity.
    + symmetry. destruct (live d) eqn:D; [|reflexivity]. cbn [andb]. apply N.eqb_neq. intros E.
      assert (F : far (base d) (base c)) by (apply (A 0 (S i)); auto).
      unfold far in F. lia.
Qed.

Lemma nth_upd_eq {A} (l : list A) i x : i < length l -> nth_error (upd l i x) i = Some x.
Proof.
  intros H. unfold upd. rewrite nth_error_app2; rewrite firstn_length; [|lia].
  now replace (i - Nat.min i (length l)) with 0 by lia.
Qed.
Lemma nth_upd_neq {A} (l : list A) i j x : i < length l -> i <> j -> nth_error (upd l i x) j = nth_error l j.
Proof.
  intros H N. rewrite <- (firstn_skipn i l) at 2. unfold upd.
  destruct (Nat.lt_ge_cases j i).
  - rewrite !nth_error_app1 by (rewrite firstn_length; lia). reflexivity.
  - rewrite !nth_error_app2 by (rewrite firstn_length; lia). rewrite firstn_length.
    replace (j - Nat.min i (length l)) with (S (j - S i)) by lia. cbn [nth_error].
    replace (skipn i l) with (nth i l x :: skipn (S i) l); [reflexivity|].
    revert i H N H0. induction l as [|y l IH]; intros i H N G; [cbn in H; lia|].
    destruct i; [reflexivity|]. cbn [skipn nth]. destruct j; [lia|]. apply IH; cbn in H; lia.
Qed.
Lemma nth_lt {A} (l : list A) i x : nth_error l i = Some x -> i < length l.
Proof. intros H. apply nth_error_Some. congruence. Qed.

(** Counting owners. *)
Definition b2n (b : bool) : nat := if b then 1 else 0.
Definition tally (o : nat) (vs : list (option owner)) : nat := length (filter (owns o) vs).

Lemma tally_app o a b : tally o (a ++ b) = tally o a + tally o b.
Proof. unfold tally. now rewrite filter_app, app_length. Qed.
Lemma tally_one o v : tally o [v] = b2n (owns o v).
Proof. unfold tally. cbn. now destruct (owns o v). Qed.
Lemma tally_upd o vs i x y : nth_error vs i = Some x ->
  tally o (upd vs i y) + b2n (owns o x) = tally o vs + b2n (owns o y).
Proof.
  intros H. pose proof (nth_error_split vs i H) as (a & b & -> & L). unfold upd.
  rewrite <- L, firstn_app, Nat.sub_diag, firstn_all, firstn_O, app_nil_r.
  replace (skipn (S (length a)) (a ++ x :: b)) with b.
  2: { clear. induction a; [reflexivity|]. cbn [app length]. exact IHa. }
  change (y :: b) with ([y] ++ b). change (x :: b) with ([x] ++ b).
  rewrite !tally_app, !tally_one. lia.
Qed.
Lemma tally_pos o vs i x : nth_error vs i = Some x -> owns o x = true -> 1 <= tally o vs.
Proof.
  intros H O. pose proof (tally_upd o vs i x None H) as T. rewrite O in T. cbn in T. lia.
Qed.
Lemma tally_two o vs i j x y : i <> j -> nth_error vs i = Some x -> nth_error vs j = Some y ->
  owns o x = true -> owns o y = true -> 2 <= tally o vs.
Proof.
  intros N Hi Hj Ox Oy. pose proof (tally_upd o vs i x None Hi) as T. rewrite Ox in T. cbn [b2n owns] in T.
  assert (1 <= tally o (upd vs i None)); [|lia].
  apply (tally_pos o _ j y); [|exact Oy]. rewrite nth_upd_neq; auto. eapply nth_lt; eauto.
Qed.

(** What a variable of the specification is in the machine. *)
Definition image (x : owner) (c : cell) : variable :=
  if wrapped x then Once (data c)
  else Pointer (match via x with
                | Ref => PRef (data c) | Mut => PMut (data c) | Box => PBox (base c)
                | Rc => PRc (base c) | Arc => PArc (base c)
                end).

Definition agrees (w : world) (h : heap) (a : option owner) (b : option variable) : Prop :=
  match a, b with
  | None, None => True
  | Some x, Some v => exists c t, nth_error h (object x) = Some c /\ nth_error (things w) (object x) = Some t
      /\ live c = true /\ v = image x c
      /\ (owning (via x) = true -> counted c = is_counted (via x))
      /\ (owning (via x) = false -> owners w (object x) = 0 \/ 1 <= forgotten t)
  | _, _ => False
  end.

Record related (w : world) (m : machine) : Prop := {
  r_len : length (locals m) = length (vars w);
  r_vars : forall i a b, nth_error (vars w) i = Some a -> nth_error (locals m) i = Some b -> agrees w (mem m) a b;
  r_size : length (mem m) = length (things w);
  r_cells : forall o t c, nth_error (things w) o = Some t -> nth_error (mem m) o = Some c ->
      val c = content t
      /\ (live c = true -> if counted c then strong c = owners w o + forgotten t
          else owners w o + forgotten t <= 1);
  r_apart : apart (mem m)
}.

Lemma related_start : related start boot.
Proof.
  constructor; cbn; auto.
  - intros i a b H. destruct i; discriminate.
  - intros o t c H. destruct o; discriminate.
  - intros i j c d _ H. destruct i; discriminate.
Qed.

Lemma var_local w m i x : related w m -> var w i = Some x ->
  exists c t, nth_error (vars w) i = Some (Some x) /\ local m i = Some (image x c)
    /\ nth_error (locals m) i = Some (Some (image x c))
    /\ nth_error (mem m) (object x) = Some c /\ nth_error (things w) (object x) = Some t
    /\ live c = true /\ (owning (via x) = true -> counted c = is_counted (via x))
    /\ (owning (via x) = false -> owners w (object x) = 0 \/ 1 <= forgotten t).
Proof.
  intros R V. unfold var in V. destruct (nth_error (vars w) i) as [[y|]|] eqn:E; try discriminate.
  injection V as ->. destruct (nth_error (locals m) i) as [b|] eqn:F.
  2: { apply nth_error_None in F. apply nth_lt in E. rewrite (r_len _ _ R) in F. lia. }
  pose proof (r_vars _ _ R _ _ _ E F) as G. destruct b as [v|]; [|contradiction].
  destruct G as (c & t & A1 & A2 & A3 & -> & A5 & A6). exists c, t. unfold local. rewrite F. repeat split; auto.
Qed.

Lemma image_target x c : (owning (via x) = true -> counted c = is_counted (via x)) -> target (image x c) = data c.
Proof.
  unfold image. destruct (wrapped x); [reflexivity|]. unfold data.
  destruct (via x); cbn; intros H; try reflexivity; now rewrite H.
Qed.

(** ** One step *)

Definition locate (h : heap) (o : nat) : addr := match nth_error h o with Some c => data c | None => 0%N end.

(** Updating a variable without changing who owns what. *)
Lemma agrees_same w w' h a b : vars w' = vars w -> things w' = things w -> agrees w h a b -> agrees w' h a b.
Proof.
  intros V T. unfold agrees, owners. rewrite V, T. auto.
Qed.

Definition kept (c c' : cell) : Prop :=
  base c' = base c /\ counted c' = counted c /\ val c' = val c.
Lemma kept_data c c' : kept c c' -> data c' = data c.
Proof. intros (B & C & _). unfold data. now rewrite B, C. Qed.
Lemma kept_image x c c' : kept c c' -> image x c' = image x c.
Proof.
  intros K. pose proof (kept_data _ _ K) as D. destruct K as (B & _ & _). unfold image. now rewrite B, D.
Qed.

(** A variable that is not touched. *)
Lemma agrees_mono w w' h h' a b :
  (forall x c t, a = Some x -> nth_error h (object x) = Some c -> live c = true ->
     nth_error (things w) (object x) = Some t ->
     (owning (via x) = false -> owners w (object x) = 0 \/ 1 <= forgotten t) ->
     (exists c', nth_error h' (object x) = Some c' /\ kept c c' /\ live c' = true)
     /\ (exists t', nth_error (things w') (object x) = Some t'
           /\ (owning (via x) = false -> owners w' (object x) = 0 \/ 1 <= forgotten t'))) ->
  agrees w h a b -> agrees w' h' a b.
Proof.
  intros H. unfold agrees. destruct a as [x|], b as [v|]; auto.
  intros (c & t & A1 & A2 & A3 & -> & A5 & A6).
  destruct (H x c t eq_refl A1 A3 A2 A6) as ((c' & C1 & C2 & C3) & (t' & T1 & T2)).
  exists c', t'. rewrite (kept_image _ _ _ C2). repeat split; auto.
  intros O. destruct C2 as (_ & -> & _). auto.
Qed.

Lemma related_set w m w' h' i a b :
  related w m -> i < length (vars w) ->
  vars w' = upd (vars w) i a ->
  length h' = length (things w') ->
  agrees w' h' a b ->
  (forall j x v, j <> i -> nth_error (vars w) j = Some x -> nth_error (locals m) j = Some v ->
     agrees w (mem m) x v -> agrees w' h' x v) ->
  (forall o t c, nth_error (things w') o = Some t -> nth_error h' o = Some c ->
      val c = content t
      /\ (live c = true -> if counted c then strong c = owners w' o + forgotten t
          else owners w' o + forgotten t <= 1)) ->
  apart h' ->
  related w' (assign m i b h').
Proof.
  intros R L V S A O C P. pose proof (r_len _ _ R) as RL.
  constructor; cbn [assign locals mem]; auto.
  - rewrite V, !upd_length by lia. exact RL.
  - rewrite V. intros j x v Hx Hv. destruct (Nat.eq_dec j i) as [->|N].
    + rewrite nth_upd_eq in Hx by lia. rewrite nth_upd_eq in Hv by lia. injection Hx as <-. injection Hv as <-. exact A.
    + rewrite nth_upd_neq in Hx by lia. rewrite nth_upd_neq in Hv by lia.
      apply (O j); auto. apply (r_vars _ _ R j); auto.
Qed.

Lemma apart_kept h h' : apart h -> length h' = length h ->
  (forall o c', nth_error h' o = Some c' -> live c' = true ->
     exists c, nth_error h o = Some c /\ kept c c' /\ live c = true) -> apart h'.
Proof.
  intros A L K i j c d N Hi Hj Lc Ld.
  destruct (K _ _ Hi Lc) as (c0 & C1 & (C2 & _) & C3), (K _ _ Hj Ld) as (d0 & D1 & (D2 & _) & D3).
  rewrite C2, D2. apply (A i j); auto.
Qed.

Lemma owners_set w i x y o ts : nth_error (vars w) i = Some x ->
  owners {| vars := upd (vars w) i y; things := ts |} o + b2n (owns o x) = owners w o + b2n (owns o y).
Proof. apply tally_upd. Qed.

Lemma owns_self x : owns (object x) (Some x) = owning (via x).
Proof. cbn. rewrite Nat.eqb_refl. apply andb_true_r. Qed.
Lemma owns_other x o : o <> object x -> owns o (Some x) = false.
Proof. intros N. cbn. apply andb_false_intro2, Nat.eqb_neq. auto. Qed.

(** Wrapping and restoring: same object, same kind of pointer. *)
Lemma related_rewrap w m i x b : related w m -> var w i = Some x ->
  related (set w i (Some {| object := object x; via := via x; wrapped := b |}))
    (assign m i (Some (match nth_error (mem m) (object x) with
       | Some c => image {| object := object x; via := via x; wrapped := b |} c | None => Once 0%N end)) (mem m)).
Proof.
  intros R V. destruct (var_local _ _ _ _ R V) as (c & t & V1 & _ & L1 & M1 & T1 & Lc & Oc & On).
  set (y := {| object := object x; via := via x; wrapped := b |}).
  assert (OW : forall o, owners (set w i (Some y)) o = owners w o).
  { intros o. pose proof (owners_set w i _ (Some y) o (things w) V1) as H. unfold set.
    change (owns o (Some y)) with (owns o (Some x)) in H. lia. }
  rewrite M1. apply (related_set w m) with (a := Some y); auto.
  - eapply nth_lt; eauto.
  - apply (r_size _ _ R).
  - exists c, t. rewrite OW. repeat split; auto.
  - intros j z v N Hz Hv. apply agrees_mono. intros q d s -> D1 D2 S1 S2. split.
    + exists d. repeat split; auto.
    + exists s. rewrite OW. auto.
  - intros o s d Hs Hd. rewrite OW. apply (r_cells _ _ R o s d Hs Hd).
  - apply (r_apart _ _ R).
Qed.

(** Giving up an owner for good. *)
Lemma nth_forget w x o t : nth_error (things w) (object x) = Some t ->
  nth_error (things (forget w x)) o =
    if (o =? object x) && owning (via x)
    then Some {| content := content t; forgotten := S (forgotten t) |} else nth_error (things w) o.
Proof.
  intros T. unfold forget; cbn [things]. rewrite T. destruct (owning (via x)).
  - rewrite andb_true_r. destruct (Nat.eqb_spec o (object x)) as [->|N].
    + apply nth_upd_eq. eapply nth_lt; eauto.
    + apply nth_upd_neq; [eapply nth_lt; eauto|auto].
  - now rewrite andb_false_r.
Qed.
Lemma length_forget w x : length (things (forget w x)) = length (things w).
Proof.
  unfold forget; cbn [things]. destruct (nth_error (things w) (object x)) eqn:T; [|reflexivity].
  destruct (owning (via x)); [|reflexivity]. apply upd_length. eapply nth_lt; eauto.
Qed.

Lemma related_forget w m i x a b : related w m -> var w i = Some x ->
  (forall o, owns o a = false) ->
  (forall c t, nth_error (mem m) (object x) = Some c -> nth_error (things w) (object x) = Some t ->
     live c = true ->
     a = None /\ b = None
     \/ (exists y, a = Some y /\ object y = object x /\ owning (via y) = false /\ b = Some (image y c))) ->
  related (forget (set w i a) x) (assign m i b (mem m)).
Proof.
  intros R V NA AB. destruct (var_local _ _ _ _ R V) as (c & t & V1 & _ & L1 & M1 & T1 & Lc & Oc & On).
  specialize (AB c t M1 T1 Lc).
  assert (OW : forall o, owners (forget (set w i a) x) o + b2n (owns o (Some x)) = owners w o).
  { intros o. pose proof (owners_set w i _ a o (things w) V1) as H. rewrite NA in H. cbn [b2n] in H.
    unfold owners in *. cbn [forget set vars] in *. lia. }
  assert (FT : forall o, nth_error (things (forget (set w i a) x)) o =
    if (o =? object x) && owning (via x)
    then Some {| content := content t; forgotten := S (forgotten t) |} else nth_error (things w) o).
  { intros o. rewrite (nth_forget (set w i a) x o t); [reflexivity|exact T1]. }
  assert (ST : forall o s, nth_error (things w) o = Some s ->
     exists s', nth_error (things (forget (set w i a) x)) o = Some s' /\ content s' = content s
       /\ forgotten s' = forgotten s + b2n (owns o (Some x))).
  { intros o s S. rewrite FT. cbn [owns]. rewrite (Nat.eqb_sym (object x) o), (andb_comm (owning _)).
    destruct (Nat.eqb_spec o (object x)) as [->|N]; cbn [andb].
    - rewrite T1 in S. injection S as <-. destruct (owning (via x)); eexists; repeat split; cbn; auto; lia.
    - exists s. cbn. repeat split; auto. }
  apply (related_set w m) with (a := a); auto.
  - eapply nth_lt; eauto.
  - rewrite length_forget. apply (r_size _ _ R).
  - destruct AB as [(-> & ->)|(y & -> & Y1 & Y2 & ->)]; [exact I|].
    destruct (ST _ _ T1) as (s' & S1 & S2 & S3).
    exists c, s'. rewrite !Y1. repeat split; auto; [congruence|]. intros _.
    destruct (owning (via x)) eqn:Ex.
    + right. rewrite S3, owns_self, Ex. cbn. lia.
    + destruct (On eq_refl) as [Z|F]; [left|right]; [|lia].
      pose proof (OW (object x)). lia.
  - intros j z v N Hz Hv. apply agrees_mono. intros q d s -> D1 D2 S1 S2. split.
    + exists d. repeat split; auto.
    + destruct (ST _ _ S1) as (s' & S3 & S4 & S5). exists s'. split; [exact S3|]. intros Hq.
      pose proof (OW (object q)). destruct (S2 Hq); [left|right]; lia.
  - intros o s d Hs Hd. destruct (nth_error (things w) o) as [s0|] eqn:E.
    2: { apply nth_error_None in E. apply nth_lt in Hs. rewrite length_forget in Hs. cbn [set things] in Hs. lia. }
    destruct (ST _ _ E) as (s' & S3 & S4 & S5). rewrite S3 in Hs. injection Hs as <-.
    destruct (r_cells _ _ R _ _ _ E Hd) as (C1 & C2). split; [congruence|]. intros Ld. specialize (C2 Ld).
    pose proof (OW o). destruct (counted d); lia.
  - apply (r_apart _ _ R).
Qed.

(** Dropping a borrow. *)
Lemma related_drop_borrow w m i x : related w m -> var w i = Some x -> owning (via x) = false ->
  related (set w i None) (assign m i None (mem m)).
Proof.
  intros R V N. assert (E : forget (set w i None) x = set w i None).
  { unfold forget, set. cbn. rewrite N. now destruct (nth_error (things w) (object x)). }
  rewrite <- E. apply related_forget; auto.
Qed.

(** Dropping one of several counted owners. *)
Lemma related_drop_counted w m i x c t n : related w m -> var w i = Some x -> owning (via x) = true ->
  nth_error (mem m) (object x) = Some c -> nth_error (things w) (object x) = Some t ->
  counted c = true -> live c = true -> strong c = S (S n) ->
  related (set w i None) (assign m i None (upd (mem m) (object x) (count c (S n)))).
Proof.
  intros R V O M1 T1 Cc Lc Sc. destruct (var_local _ _ _ _ R V) as (_ & _ & V1 & _).
  assert (OW : forall o, owners (set w i None) o + b2n (owns o (Some x)) = owners w o).
  { intros o. pose proof (owners_set w i _ None o (things w) V1) as H. cbn [b2n owns] in H. unfold set. cbn [owns]. lia. }
  pose proof (nth_lt _ _ _ M1) as LM.
  assert (K : forall o d, nth_error (mem m) o = Some d ->
     exists d', nth_error (upd (mem m) (object x) (count c (S n))) o = Some d' /\ kept d d' /\ live d' = live d).
  { intros o d D. destruct (Nat.eq_dec o (object x)) as [->|N].
    - rewrite nth_upd_eq by auto. eexists. split; [reflexivity|]. rewrite M1 in D. injection D as <-.
      repeat split.
    - rewrite nth_upd_neq by auto. exists d. repeat split; auto. }
  destruct (r_cells _ _ R _ _ _ T1 M1) as (Cv & Cs). specialize (Cs Lc). rewrite Cc, Sc in Cs.
  apply (related_set w m) with (a := None); auto.
  - eapply nth_lt; eauto.
  - rewrite upd_length by auto. apply (r_size _ _ R).
  - exact I.
  - intros j z v N Hz Hv. apply agrees_mono. intros q d s -> D1 D2 S1 S2.
    destruct (K _ _ D1) as (d' & K1 & K2 & K3). split.
    + exists d'. repeat split; try apply K2; auto. congruence.
    + exists s. split; [exact S1|]. intros Hq. pose proof (OW (object q)). destruct (S2 Hq); [left|right]; lia.
  - intros o s d Hs Hd. cbn [set things] in Hs. destruct (Nat.eq_dec o (object x)) as [->|N].
    + rewrite nth_upd_eq in Hd by auto. injection Hd as <-. rewrite T1 in Hs. injection Hs as <-.
      cbn [count val counted live strong]. split; [exact Cv|]. rewrite Cc. intros _.
      pose proof (OW (object x)) as H. rewrite owns_self, O in H. cbn [b2n] in H. lia.
    + rewrite nth_upd_neq in Hd by auto. destruct (r_cells _ _ R _ _ _ Hs Hd) as (C1 & C2). split; [exact C1|].
      pose proof (OW o) as H. rewrite owns_other in H by auto. cbn [b2n] in H. rewrite Nat.add_0_r in H. now rewrite H.
  - apply (apart_kept (mem m)); [apply (r_apart _ _ R)|now rewrite upd_length|].
    intros o d' D Ld. destruct (Nat.eq_dec o (object x)) as [->|N].
    + rewrite nth_upd_eq in D by auto. injection D as <-. exists c. repeat split; auto.
    + rewrite nth_upd_neq in D by auto. exists d'. repeat split; auto.
Qed.

(** Dropping the last owner. *)
Lemma related_drop_last w m i x c t : related w m -> var w i = Some x -> owning (via x) = true ->
  nth_error (mem m) (object x) = Some c -> nth_error (things w) (object x) = Some t ->
  owners w (object x) = 1 -> forgotten t = 0 ->
  related (set w i None) (assign m i None (upd (mem m) (object x) (dead c))).
Proof.
  intros R V O M1 T1 O1 F0. destruct (var_local _ _ _ _ R V) as (_ & _ & V1 & _).
  assert (OW : forall o, owners (set w i None) o + b2n (owns o (Some x)) = owners w o).
  { intros o. pose proof (owners_set w i _ None o (things w) V1) as H. cbn [b2n owns] in H. unfold set. cbn [owns]. lia. }
  pose proof (nth_lt _ _ _ M1) as LM.
  apply (related_set w m) with (a := None); auto.
  - eapply nth_lt; eauto.
  - rewrite upd_length by auto. apply (r_size _ _ R).
  - exact I.
  - intros j z v N Hz Hv. apply agrees_mono. intros q d s -> D1 D2 S1 S2.
    assert (NQ : object q <> object x).
    { intros E. destruct (owning (via q)) eqn:Q.
      - assert (2 <= owners w (object x)); [|lia].
        apply (tally_two (object x) (vars w) i j (Some x) (Some q)); auto.
        + now rewrite owns_self.
        + now rewrite <- E, owns_self.
      - rewrite E in S1. rewrite T1 in S1. injection S1 as <-. rewrite E in S2. destruct (S2 eq_refl); lia. }
    split.
    + exists d. rewrite nth_upd_neq by auto. repeat split; auto.
    + exists s. split; [exact S1|]. intros Hq. pose proof (OW (object q)). destruct (S2 Hq); [left|right]; lia.
  - intros o s d Hs Hd. cbn [set things] in Hs. destruct (Nat.eq_dec o (object x)) as [->|N].
    + rewrite nth_upd_eq in Hd by auto. injection Hd as <-. rewrite T1 in Hs. injection Hs as <-.
      cbn [dead val live]. split; [|discriminate]. apply (r_cells _ _ R _ _ _ T1 M1).
    + rewrite nth_upd_neq in Hd by auto. destruct (r_cells _ _ R _ _ _ Hs Hd) as (C1 & C2). split; [exact C1|].
      pose proof (OW o) as H. rewrite owns_other in H by auto. cbn [b2n] in H. rewrite Nat.add_0_r in H. now rewrite H.
  - apply (apart_kept (mem m)); [apply (r_apart _ _ R)|now rewrite upd_length|].
    intros o d' D Ld. destruct (Nat.eq_dec o (object x)) as [->|N].
    + rewrite nth_upd_eq in D by auto. injection D as <-. discriminate.
    + rewrite nth_upd_neq in D by auto. exists d'. repeat split; auto.
Qed.

(** A further variable. *)
Lemma nth_snoc {A} (l : list A) i x y : nth_error (l ++ [x]) i = Some y ->
  nth_error l i = Some y \/ i = length l /\ y = x.
Proof.
  intros H. destruct (Nat.lt_ge_cases i (length l)).
  - left. now rewrite nth_error_app1 in H.
  - right. rewrite nth_error_app2 in H by lia. destruct (i - length l) as [|k] eqn:E.
    + injection H as ->. split; [lia|auto].
    + destruct k; discriminate.
Qed.

Lemma related_add w m w' h' a b :
  related w m ->
  vars w' = vars w ++ [a] -> length h' = length (things w') ->
  agrees w' h' a b ->
  (forall j x v, nth_error (vars w) j = Some x -> nth_error (locals m) j = Some v ->
     agrees w (mem m) x v -> agrees w' h' x v) ->
  (forall o t c, nth_error (things w') o = Some t -> nth_error h' o = Some c ->
      val c = content t
      /\ (live c = true -> if counted c then strong c = owners w' o + forgotten t
          else owners w' o + forgotten t <= 1)) ->
  apart h' ->
  related w' {| locals := locals m ++ [b]; mem := h' |}.
Proof.
  intros R V S A O C P. pose proof (r_len _ _ R) as RL.
  constructor; cbn [locals mem]; auto.
  - rewrite V, !app_length. cbn. lia.
  - rewrite V. intros j x v Hx Hv. apply nth_snoc in Hx. apply nth_snoc in Hv.
    destruct Hx as [Hx|(E & ->)], Hv as [Hv|(E' & ->)]; auto.
    + apply (O j); auto. apply (r_vars _ _ R j); auto.
    + apply nth_lt in Hx. lia.
    + apply nth_lt in Hv. lia.
Qed.

Lemma owners_add w x o ts : owners {| vars := vars w ++ [Some x]; things := ts |} o = owners w o + b2n (owns o (Some x)).
Proof. unfold owners. cbn [vars]. change (tally o (vars w ++ [Some x]) = tally o (vars w) + b2n (owns o (Some x))).
  now rewrite tally_app, tally_one. Qed.

Lemma related_clone_counted w m i x c t : related w m -> var w i = Some x -> owning (via x) = true ->
  nth_error (mem m) (object x) = Some c -> nth_error (things w) (object x) = Some t ->
  counted c = true -> live c = true ->
  related (add w x) {| locals := locals m ++ [Some (image x c)]; mem := upd (mem m) (object x) (count c (S (strong c))) |}.
Proof.
  intros R V O M1 T1 Cc Lc. destruct (var_local _ _ _ _ R V) as (c0 & t0 & V1 & _ & _ & M1' & _ & _ & Oc & On).
  rewrite M1 in M1'. injection M1' as <-.
  pose proof (nth_lt _ _ _ M1) as LM. pose proof (owners_add w x) as OW.
  assert (P1 : 1 <= owners w (object x)) by (eapply tally_pos; [exact V1|now rewrite owns_self]).
  apply (related_add w m) with (a := Some x); auto.
  - rewrite upd_length by auto. apply (r_size _ _ R).
  - exists (count c (S (strong c))), t. rewrite nth_upd_eq by auto. repeat split; auto. intros N. congruence.
  - intros j z v Hz Hv. apply agrees_mono. intros q d s -> D1 D2 S1 S2. split.
    + destruct (Nat.eq_dec (object q) (object x)) as [E|N].
      * rewrite E, nth_upd_eq by auto. rewrite E, M1 in D1. injection D1 as <-. eexists. repeat split; auto.
      * rewrite nth_upd_neq by auto. exists d. repeat split; auto.
    + exists s. split; [exact S1|]. intros Hq. unfold add. rewrite OW.
      destruct (S2 Hq) as [Z|F]; [|now right]. left. destruct (Nat.eq_dec (object q) (object x)) as [E|N].
      * rewrite E in Z. lia.
      * rewrite owns_other by auto. cbn. lia.
  - intros o s d Hs Hd. cbn [add things] in Hs. unfold add. rewrite OW. destruct (Nat.eq_dec o (object x)) as [->|N].
    + rewrite nth_upd_eq in Hd by auto. injection Hd as <-. rewrite T1 in Hs. injection Hs as <-.
      destruct (r_cells _ _ R _ _ _ T1 M1) as (C1 & C2). specialize (C2 Lc). rewrite Cc in C2.
      cbn [count val counted live strong]. split; [exact C1|]. rewrite Cc, owns_self, O. cbn [b2n]. intros _. lia.
    + rewrite nth_upd_neq in Hd by auto. rewrite owns_other by auto. cbn [b2n]. rewrite Nat.add_0_r.
      apply (r_cells _ _ R _ _ _ Hs Hd).
  - apply (apart_kept (mem m)); [apply (r_apart _ _ R)|now rewrite upd_length|].
    intros o d' D Ld. destruct (Nat.eq_dec o (object x)) as [->|N].
    + rewrite nth_upd_eq in D by auto. injection D as <-. exists c. repeat split; auto.
    + rewrite nth_upd_neq in D by auto. exists d'. repeat split; auto.
Qed.

Lemma related_clone_borrow w m i x c : related w m -> var w i = Some x -> owning (via x) = false ->
  nth_error (mem m) (object x) = Some c ->
  related (add w x) {| locals := locals m ++ [Some (image x c)]; mem := mem m |}.
Proof.
  intros R V O M1. destruct (var_local _ _ _ _ R V) as (c0 & t & V1 & _ & _ & M1' & T1 & Lc & Oc & On).
  rewrite M1 in M1'. injection M1' as <-.
  assert (OW : forall o, owners (add w x) o = owners w o).
  { intros o. unfold add. rewrite owners_add. cbn [owns]. rewrite O. cbn. lia. }
  apply (related_add w m) with (a := Some x); auto.
  - apply (r_size _ _ R).
  - exists c, t. rewrite OW. repeat split; auto.
  - intros j z v Hz Hv. apply agrees_mono. intros q d s -> D1 D2 S1 S2. split.
    + exists d. repeat split; auto.
    + exists s. rewrite OW. auto.
  - intros o s d Hs Hd. rewrite OW. apply (r_cells _ _ R _ _ _ Hs Hd).
  - apply (r_apart _ _ R).
Qed.

Lemma owners_fresh w m o : related w m -> length (things w) <= o -> owners w o = 0.
Proof.
  intros R L. destruct (Nat.eq_dec (owners w o) 0) as [|N]; [auto|]. exfalso. unfold owners in N.
  destruct (filter (owns o) (vars w)) as [|v l] eqn:E; [now apply N|].
  assert (I : In v (filter (owns o) (vars w))) by (rewrite E; now left). apply filter_In in I as (I & Ow).
  apply In_nth_error in I as (i & I). destruct v as [x|]; [|discriminate].
  destruct (var_local w m i x R) as (c & t & _ & _ & _ & M & _).
  { unfold var. now rewrite I. }
  cbn in Ow. apply andb_prop in Ow as (_ & Ow). apply Nat.eqb_eq in Ow. subst o. apply nth_lt in M.
  rewrite (r_size _ _ R) in M. lia.
Qed.

Lemma related_new place w m k v : fits place -> related w m ->
  let c := {| base := place (mem m); counted := is_counted k; strong := 1; val := v; live := true |} in
  let x := {| object := length (things w); via := k; wrapped := false |} in
  related {| vars := vars w ++ [Some x]; things := things w ++ [{| content := v; forgotten := 0 |}] |}
    {| locals := locals m ++ [Some (image x c)]; mem := mem m ++ [c] |}.
Proof.
  intros F R c x. pose proof (r_size _ _ R) as RS. pose proof (owners_add w x) as OW.
  apply (related_add w m) with (a := Some x); auto.
  - rewrite !app_length. cbn. cbn [things]. rewrite app_length. cbn. lia.
  - exists c, {| content := v; forgotten := 0 |}.
    cbn [object x]. rewrite <- RS at 1. rewrite !nth_error_app2 by lia. rewrite !Nat.sub_diag.
    cbn [things]. rewrite nth_error_app2, Nat.sub_diag by lia.
    repeat split; auto. intros Hk. left. rewrite OW, (owners_fresh w m) by (auto; cbn; lia).
    cbn [owns via x] in *. now rewrite Hk.
  - intros j z u Hz Hu. apply agrees_mono. intros q d s -> D1 D2 S1 S2.
    pose proof (nth_lt _ _ _ D1). pose proof (nth_lt _ _ _ S1). split.
    + exists d. rewrite nth_error_app1 by auto. repeat split; auto.
    + exists s. cbn [things]. rewrite nth_error_app1 by auto. split; [auto|]. intros Hq. rewrite OW, owns_other by (cbn; lia).
      cbn [b2n]. rewrite Nat.add_0_r. auto.
  - intros o s d Hs Hd. cbn [things] in Hs. rewrite OW. apply nth_snoc in Hs. apply nth_snoc in Hd.
    destruct Hs as [Hs|(-> & ->)].
    + destruct Hd as [Hd|(E & ->)]; [|apply nth_lt in Hs; lia].
      rewrite owns_other by (apply nth_lt in Hs; cbn; lia). cbn [b2n]. rewrite Nat.add_0_r. apply (r_cells _ _ R _ _ _ Hs Hd).
    + destruct Hd as [Hd|(E & ->)]; [apply nth_lt in Hd; lia|].
      cbn [val content c live counted strong forgotten]. split; [reflexivity|]. intros _.
      rewrite (owners_fresh w m) by auto. change (length (things w)) with (object x). rewrite owns_self.
      cbn [via x]. destruct k; cbn; lia.
  - intros i j d e N Hi Hj Ld Le. apply nth_snoc in Hi. apply nth_snoc in Hj.
    destruct Hi as [Hi|(-> & ->)], Hj as [Hj|(-> & ->)].
    + apply (r_apart _ _ R i j); auto.
    + apply far_sym, F; [eapply nth_error_In; eauto|auto].
    + apply F; [eapply nth_error_In; eauto|auto].
    + contradiction.
Qed.

Lemma data_apart h : apart h -> forall a b c d, a <> b -> nth_error h a = Some c -> nth_error h b = Some d ->
  live c = true -> live d = true -> data c <> data d.
Proof.
  intros A a b c d N C D Lc Ld E. pose proof (A _ _ _ _ N C D Lc Ld) as H. unfold far in H. unfold data in E.
  destruct (counted c), (counted d); lia.
Qed.

(** Every object stays where it is. *)
Definition stays (h h' : heap) : Prop :=
  forall o c, nth_error h o = Some c -> exists c', nth_error h' o = Some c' /\ kept c c'.

Lemma stays_refl h : stays h h.
Proof. intros o c H. exists c. repeat split; auto. Qed.
Lemma stays_upd h o c c' : nth_error h o = Some c -> kept c c' -> stays h (upd h o c').
Proof.
  intros H K q d D. pose proof (nth_lt _ _ _ H). destruct (Nat.eq_dec o q) as [<-|N].
  - rewrite nth_upd_eq by auto. rewrite H in D. injection D as <-. eauto.
  - rewrite nth_upd_neq by auto. exists d. repeat split; auto.
Qed.
Lemma stays_trans a b c : stays a b -> stays b c -> stays a c.
Proof.
  intros A B o d H. destruct (A _ _ H) as (d1 & H1 & (K1 & K2 & K3)).
  destruct (B _ _ H1) as (d2 & H2 & (L1 & L2 & L3)). exists d2. repeat split; congruence.
Qed.

Lemma owning_kinds k : owning k = true -> k = Box \/ k = Rc \/ k = Arc.
Proof. destruct k; cbn; try discriminate; auto. Qed.

Lemma step_exec place w m p w' e : fits place -> related w m -> step w p = Some (w', e) ->
  exists m', exec place m p = Some (m', render (locate (mem m)) e) /\ related w' m' /\ stays (mem m) (mem m').
Proof.
  intros F R S. destruct p as [k v|i|i|i|i k|i|i|i|i j]; cbn [step] in S.
  - (* New *)
    injection S as <- <-. eexists. split; [reflexivity|]. split.
    + pose proof (related_new place w m k v F R) as H. cbn zeta in H.
      replace (Pointer (new_pointer k (place (mem m)))) with
        (image {| object := length (things w); via := k; wrapped := false |}
           {| base := place (mem m); counted := is_counted k; strong := 1; val := v; live := true |}); [exact H|].
      unfold image, data. destruct k; reflexivity.
    + intros o c H. exists c. cbn [mem]. rewrite nth_error_app1 by (eapply nth_lt; eauto). repeat split; auto.
  - (* Clone *)
    destruct (var w i) as [x|] eqn:V; [|discriminate].
    destruct (copyable (via x) && negb (wrapped x)) eqn:E; [|discriminate]. injection S as <- <-.
    apply andb_prop in E as (Ec & Ew). apply negb_true_iff in Ew.
    destruct (var_local _ _ _ _ R V) as (c & t & V1 & L & L1 & M1 & T1 & Lc & Oc & On).
    cbn [exec]. rewrite L. unfold image. rewrite Ew.
    destruct (owning (via x)) eqn:O.
    + pose proof (Oc eq_refl) as Cc. assert (Ck : counted c = true) by (destruct (via x); auto; discriminate).
      assert (H : clone_pointer (mem m) (match via x with
        | Ref => PRef (data c) | Mut => PMut (data c) | Box => PBox (base c)
        | Rc => PRc (base c) | Arc => PArc (base c) end)
        = Some (upd (mem m) (object x) (count c (Datatypes.S (strong c))), match via x with
        | Ref => PRef (data c) | Mut => PMut (data c) | Box => PBox (base c)
        | Rc => PRc (base c) | Arc => PArc (base c) end)).
      { destruct (via x); try discriminate; cbn [clone_pointer];
          rewrite (at_base_found _ _ (r_apart _ _ R) _ _ M1 Lc), Ck; reflexivity. }
      rewrite H. eexists. split; [reflexivity|]. split.
      * pose proof (related_clone_counted w m i x c t R V O M1 T1 Ck Lc) as G. unfold image in G. now rewrite Ew in G.
      * apply (stays_upd _ _ c); [auto|]. repeat split.
    + assert (via x = Ref) as K by (destruct (via x); cbn in *; try discriminate; auto).
      rewrite K. cbn [clone_pointer]. eexists. split; [reflexivity|]. split; [|apply stays_refl].
      pose proof (related_clone_borrow w m i x c R V O M1) as G. unfold image in G. now rewrite Ew, K in G.
  - (* Drop *)
    destruct (var w i) as [x|] eqn:V; [|discriminate].
    destruct (var_local _ _ _ _ R V) as (c & t & V1 & L & L1 & M1 & T1 & Lc & Oc & On).
    destruct (r_cells _ _ R _ _ _ T1 M1) as (Cv & Cs). specialize (Cs Lc).
    cbn [exec]. rewrite L. unfold image. destruct (wrapped x) eqn:W.
    + injection S as <- <-. eexists. split; [reflexivity|]. split; [|apply stays_refl].
      apply related_forget; auto.
    + destruct (owning (via x)) eqn:O; cbn [andb] in S.
      * pose proof (Oc eq_refl) as Cc.
        assert (P1 : 1 <= owners w (object x)) by (eapply tally_pos; [exact V1|now rewrite owns_self]).
        unfold last_owner in S. rewrite T1 in S. unfold value_of in S. rewrite T1 in S.
        destruct ((owners w (object x) =? 1) && (forgotten t =? 0)) eqn:La; injection S as <- <-.
        -- apply andb_prop in La as (La1 & La2). apply Nat.eqb_eq in La1, La2.
           exists (assign m i None (upd (mem m) (object x) (dead c))). split; [|split].
           ++ assert (H : drop_pointer (mem m) (match via x with
                | Ref => PRef (data c) | Mut => PMut (data c) | Box => PBox (base c)
                | Rc => PRc (base c) | Arc => PArc (base c) end)
                = Some (upd (mem m) (object x) (dead c), Destroyed (val c))).
              { destruct (owning_kinds _ O) as [K|[K|K]]; rewrite K in *; cbn [drop_pointer is_counted] in *;
                  rewrite (at_base_found _ _ (r_apart _ _ R) _ _ M1 Lc), Cc; cbn [negb]; try reflexivity;
                  rewrite Cc in Cs; replace (strong c) with 1 by lia; reflexivity. }
              rewrite H. cbn [render]. now rewrite Cv.
           ++ apply (related_drop_last w m i x c t); auto.
           ++ apply (stays_upd _ _ c); [auto|]. repeat split.
        -- assert (2 <= owners w (object x) + forgotten t).
           { destruct (Nat.eqb_spec (owners w (object x)) 1); cbn [andb] in La; [|lia].
             apply Nat.eqb_neq in La. lia. }
           assert (Ck : counted c = true) by (destruct (counted c); [auto|lia]). rewrite Ck in Cs.
           destruct (strong c) as [|[|n]] eqn:Sn; try lia.
           exists (assign m i None (upd (mem m) (object x) (count c (Datatypes.S n)))). split; [|split].
           ++ assert (H0 : drop_pointer (mem m) (match via x with
                | Ref => PRef (data c) | Mut => PMut (data c) | Box => PBox (base c)
                | Rc => PRc (base c) | Arc => PArc (base c) end)
                = Some (upd (mem m) (object x) (count c (Datatypes.S n)), Silent)).
              { destruct (owning_kinds _ O) as [K|[K|K]]; rewrite K in *; cbn [drop_pointer is_counted] in *;
                  [congruence| |]; rewrite (at_base_found _ _ (r_apart _ _ R) _ _ M1 Lc), Ck; cbn [negb];
                  rewrite Sn; reflexivity. }
              rewrite H0. reflexivity.
           ++ apply (related_drop_counted w m i x c t n); auto.
           ++ apply (stays_upd _ _ c); [auto|]. repeat split.
      * injection S as <- <-. exists (assign m i None (mem m)). split; [|split; [|apply stays_refl]].
        -- destruct (via x); try discriminate; reflexivity.
        -- now apply (related_drop_borrow w m i x).
  - (* Into *)
    destruct (var w i) as [x|] eqn:V; [|discriminate]. destruct (wrapped x) eqn:W; [discriminate|].
    injection S as <- <-.
    destruct (var_local _ _ _ _ R V) as (c & t & V1 & L & L1 & M1 & T1 & Lc & Oc & On).
    cbn [exec]. rewrite L. unfold image. rewrite W. eexists. split; [reflexivity|]. split; [|apply stays_refl].
    pose proof (related_rewrap w m i x true R V) as G. rewrite M1 in G. unfold image in G. cbn [wrapped] in G.
    replace (into_deref _) with (data c); [exact G|].
    unfold data. destruct (via x) eqn:K; cbn in *; try reflexivity; rewrite (Oc eq_refl); reflexivity.
  - (* From *)
    destruct (var w i) as [x|] eqn:V; [|discriminate]. destruct (wrapped x && same_kind (via x) k) eqn:W; [|discriminate].
    apply andb_prop in W as (W & K). assert (via x = k) by (destruct (via x), k; auto; discriminate). subst k.
    injection S as <- <-.
    destruct (var_local _ _ _ _ R V) as (c & t & V1 & L & L1 & M1 & T1 & Lc & Oc & On).
    cbn [exec]. rewrite L. unfold image. rewrite W. eexists. split; [reflexivity|]. split; [|apply stays_refl].
    pose proof (related_rewrap w m i x false R V) as G. rewrite M1 in G. unfold image in G. cbn [wrapped via object] in G.
    replace (from_deref (via x) (data c)) with (match via x with
                | Ref => PRef (data c) | Mut => PMut (data c) | Box => PBox (base c)
                | Rc => PRc (base c) | Arc => PArc (base c) end); [exact G|].
    unfold data. destruct (via x) eqn:E; cbn in *; try reflexivity; rewrite (Oc eq_refl); cbn;
      unfold box_from_raw, rc_from_raw, into_nonnull; f_equal; lia.
  - (* Unwrap *)
    destruct (var w i) as [x|] eqn:V; [|discriminate]. destruct (wrapped x) eqn:W; [|discriminate].
    injection S as <- <-.
    destruct (var_local _ _ _ _ R V) as (c & t & V1 & L & L1 & M1 & T1 & Lc & Oc & On).
    cbn [exec]. rewrite L. unfold image. rewrite W. eexists. split; [reflexivity|]. split; [|apply stays_refl].
    apply related_forget; auto. intros c' t' M' T' _. right. rewrite M1 in M'. injection M' as <-.
    eexists. repeat split.
  - (* Read *)
    destruct (var w i) as [x|] eqn:V; [|discriminate]. injection S as <- <-.
    destruct (var_local _ _ _ _ R V) as (c & t & V1 & L & L1 & M1 & T1 & Lc & Oc & On).
    cbn [exec]. rewrite L. change referent with target. rewrite image_target by auto. rewrite (at_data_found _ (r_apart _ _ R) _ _ M1 Lc).
    exists m. split; [|split; [auto|apply stays_refl]]. cbn [render]. unfold value_of. rewrite T1.
    destruct (r_cells _ _ R _ _ _ T1 M1) as (-> & _). reflexivity.
  - (* Where *)
    destruct (var w i) as [x|] eqn:V; [|discriminate]. injection S as <- <-.
    destruct (var_local _ _ _ _ R V) as (c & t & V1 & L & L1 & M1 & T1 & Lc & Oc & On).
    cbn [exec]. rewrite L, image_target by auto. exists m. split; [|split; [auto|apply stays_refl]].
    cbn [render]. unfold locate. now rewrite M1.
  - (* Same *)
    destruct (var w i) as [x|] eqn:V; [|discriminate]. destruct (var w j) as [y|] eqn:U; [|discriminate].
    injection S as <- <-.
    destruct (var_local _ _ _ _ R V) as (c & t & V1 & L & L1 & M1 & T1 & Lc & Oc & On).
    destruct (var_local _ _ _ _ R U) as (d & u & U1 & L' & L1' & M1' & T1' & Ld & Od & Od').
    cbn [exec]. rewrite L, L', !image_target by auto. exists m. split; [|split; [auto|apply stays_refl]].
    cbn [render]. do 3 f_equal. unfold identity_eq. destruct (Nat.eqb_spec (object x) (object y)) as [E|E].
    + rewrite E in M1. rewrite M1 in M1'. injection M1' as <-. apply N.eqb_refl.
    + apply N.eqb_neq. eapply data_apart; eauto using r_apart.
Qed.

Lemma step_where w m p w' o : related w m -> step w p = Some (w', At o) -> exists c, nth_error (mem m) o = Some c.
Proof.
  intros R S. destruct p as [k v|i|i|i|i k|i|i|i|i j]; cbn [step] in S; try discriminate;
    repeat match type of S with
    | context [match var w ?i with _ => _ end] => destruct (var w i) eqn:?; [|discriminate]
    | context [if ?b then _ else _] => destruct b
    end; try discriminate.
  injection S as <- <-. destruct (var_local _ _ _ _ R Heqo0) as (c & t & _ & _ & _ & M & _). eauto.
Qed.

Lemma locate_stays h h' o c : stays h h' -> nth_error h o = Some c -> locate h' o = locate h o.
Proof.
  intros S H. destruct (S _ _ H) as (c' & H' & K). unfold locate. rewrite H, H'. now apply kept_data.
Qed.

Lemma run_execs place ps : fits place -> forall w m w' es, related w m -> run w ps = Some (w', es) ->
  exists m', execs place m ps = Some (m', map (render (locate (mem m'))) es) /\ related w' m' /\ stays (mem m) (mem m').
Proof.
  intros F. induction ps as [|p ps IH]; intros w m w' es R H; cbn [run] in H.
  - injection H as <- <-. exists m. split; [reflexivity|]. split; [auto|apply stays_refl].
  - destruct (step w p) as [[w1 e]|] eqn:E; [|discriminate]. destruct (run w1 ps) as [[w2 es2]|] eqn:G; [|discriminate].
    injection H as <- <-. destruct (step_exec place _ _ _ _ _ F R E) as (m1 & X & R1 & S1).
    destruct (IH _ _ _ _ R1 G) as (m2 & Y & R2 & S2). exists m2. pose proof (stays_trans _ _ _ S1 S2) as S3.
    split; [|split; auto]. cbn [execs]. rewrite X, Y. cbn [map]. do 3 f_equal.
    destruct e; cbn [render]; try reflexivity. destruct (step_where _ _ _ _ _ R E) as (c & C).
    now rewrite (locate_stays _ _ _ _ S3 C).
Qed.

(** ** Nothing leaks, nothing is destroyed twice *)

Definition sound (w : world) : Prop :=
  forall i x, nth_error (vars w) i = Some (Some x) -> object x < length (things w).

Definition holding (w : world) (o : nat) : list Z :=
  match nth_error (things w) o with
  | Some t => if owners w o + forgotten t =? 0 then [] else [content t]
  | None => []
  end.

Lemma owned_holding w : owned w = flat_map (holding w) (seq 0 (length (things w))).
Proof. reflexivity. Qed.

Lemma flat_map_same {A B} (f g : A -> list B) l : (forall x, In x l -> f x = g x) -> flat_map f l = flat_map g l.
Proof.
  induction l as [|x l IH]; intros H; [reflexivity|]. cbn. rewrite (H x) by (now left). f_equal. apply IH.
  intros y Y. apply H. now right.
Qed.

Lemma owned_same w w' : length (things w') = length (things w) ->
  (forall o, o < length (things w) -> holding w' o = holding w o) -> owned w' = owned w.
Proof.
  intros L H. rewrite !owned_holding, L. apply flat_map_same. intros o O. apply in_seq in O. apply H. lia.
Qed.

Lemma flat_map_one {A B} (f g : A -> list B) l x v : NoDup l -> In x l -> f x = [v] -> g x = [] ->
  (forall y, y <> x -> f y = g y) -> Permutation (flat_map f l) (v :: flat_map g l).
Proof.
  intros N I F G H. induction N as [|y l Y N IH]; [contradiction|]. cbn. destruct I as [->|I].
  - rewrite F, G. cbn. constructor. rewrite (flat_map_same f g); [reflexivity|].
    intros z Z. apply H. intros ->. contradiction.
  - assert (y <> x) by (intros ->; contradiction). rewrite (H y) by auto. rewrite (IH I).
    symmetry. apply Permutation_middle.
Qed.

Lemma var_nth w i x : var w i = Some x -> nth_error (vars w) i = Some (Some x).
Proof. unfold var. destruct (nth_error (vars w) i) as [[y|]|]; try discriminate. now intros [= ->]. Qed.

Lemma sound_set w i a : sound w -> (forall x, a = Some x -> object x < length (things w)) -> i < length (vars w) ->
  forall ts, length ts = length (things w) -> sound {| vars := upd (vars w) i a; things := ts |}.
Proof.
  intros S A I ts T j y Y. cbn [vars things] in *. rewrite T. destruct (Nat.eq_dec i j) as [<-|N].
  - rewrite nth_upd_eq in Y by auto. injection Y as Y. now apply A.
  - rewrite nth_upd_neq in Y by auto. eapply S; eauto.
Qed.

Lemma tally_out w o : sound w -> length (things w) <= o -> owners w o = 0.
Proof.
  intros S L. unfold owners. destruct (filter (owns o) (vars w)) as [|v l] eqn:E; [reflexivity|].
  assert (I : In v (filter (owns o) (vars w))) by (rewrite E; now left).
  apply filter_In in I as (I & O). destruct v as [x|]; [|discriminate]. apply In_nth_error in I as (i & I).
  cbn in O. apply andb_prop in O as (_ & O). apply Nat.eqb_eq in O. pose proof (S _ _ I). lia.
Qed.

(** An object is held as before if it has the same value and is owned if it was. *)
Lemma holding_same w w' o t t' : nth_error (things w) o = Some t -> nth_error (things w') o = Some t' ->
  content t' = content t -> (owners w' o + forgotten t' = 0 <-> owners w o + forgotten t = 0) -> holding w' o = holding w o.
Proof.
  intros T T' C H. unfold holding. rewrite T, T', C.
  destruct (Nat.eqb_spec (owners w o + forgotten t) 0), (Nat.eqb_spec (owners w' o + forgotten t') 0); tauto.
Qed.

Lemma nth_some {A} (l : list A) i : i < length l -> exists x, nth_error l i = Some x.
Proof. intros H. destruct (nth_error l i) eqn:E; eauto. apply nth_error_None in E. lia. Qed.

(** Giving up one variable, with or without its object. *)
Lemma owned_forget w i x y : var w i = Some x -> object x < length (things w) ->
  (forall o, owns o y = false) -> owned (forget (set w i y) x) = owned w.
Proof.
  intros V B Y. apply owned_same; [apply (length_forget (set w i y))|]. intros o O.
  destruct (nth_some _ _ B) as (t & T). destruct (nth_some _ _ O) as (u & U).
  pose proof (owners_set w i (Some x) y o (things (forget (set w i y) x)) (var_nth _ _ _ V)) as Q.
  change (owners {| vars := upd (vars w) i y; things := things (forget (set w i y) x) |} o)
    with (owners (forget (set w i y) x) o) in Q. rewrite (Y o) in Q. cbn [b2n] in Q.
  pose proof (nth_forget (set w i y) x o t T) as F.
  destruct (Nat.eqb_spec o (object x)) as [->|N].
  - rewrite U in T. injection T as <-. rewrite owns_self in Q. cbn [andb] in F. destruct (owning (via x)).
    + eapply holding_same; [exact U|exact F|reflexivity|]. cbn [forgotten b2n] in *. lia.
    + eapply holding_same; [exact U|rewrite F; exact U|reflexivity|]. cbn [b2n] in *. lia.
  - rewrite owns_other in Q by auto. cbn [andb b2n] in *.
    eapply holding_same; [exact U|rewrite F; exact U|reflexivity|]. lia.
Qed.

Lemma owned_set w i x y : var w i = Some x ->
  (forall o, o < length (things w) -> owns o (Some x) = owns o y) -> owned (set w i y) = owned w.
Proof.
  intros V Y. apply owned_same; [reflexivity|]. intros o O. destruct (nth_some _ _ O) as (u & U).
  eapply holding_same; [exact U|exact U|reflexivity|].
  pose proof (owners_set w i (Some x) y o (things w) (var_nth _ _ _ V)) as Q. rewrite (Y o O) in Q.
  unfold set. lia.
Qed.

Lemma step_owned w p w' e : sound w -> step w p = Some (w', e) ->
  sound w' /\ Permutation (created [p] ++ owned w) (destroyed [e] ++ owned w').
Proof.
  intros W S. destruct p as [k v|i|i|i|i k|i|i|i|i j]; cbn [step] in S.
  - injection S as <- <-. split.
    + intros j y Y. cbn [vars things] in *. rewrite app_length. cbn [length].
      destruct (nth_snoc _ _ _ _ Y) as [H|(_ & H)]; [apply W in H; lia|]. injection H as ->. cbn. lia.
    + assert (H : owned {| vars := vars w ++ [Some {| object := length (things w); via := k; wrapped := false |}];
                  things := things w ++ [{| content := v; forgotten := 0 |}] |} = owned w ++ if owning k then [v] else []).
      { rewrite owned_holding. cbn [things]. rewrite app_length, seq_app, flat_map_app. cbn [length seq flat_map].
        rewrite app_nil_r, Nat.add_0_l. f_equal.
        - rewrite owned_holding. apply flat_map_same. intros o O. apply in_seq in O.
          destruct (nth_some (things w) o ltac:(lia)) as (t & T).
          eapply holding_same; [exact T|cbn [things]; rewrite nth_error_app1 by lia; exact T|reflexivity|].
          rewrite owners_add, owns_other by (cbn; lia). cbn. lia.
        - unfold holding. cbn [things]. rewrite nth_error_app2, Nat.sub_diag by lia. cbn [nth_error content forgotten].
          rewrite owners_add, (tally_out w) by auto.
          replace (length (things w)) with (object {| object := length (things w); via := k; wrapped := false |}) at 1 by reflexivity.
          rewrite owns_self. cbn [via]. now destruct (owning k). }
      rewrite H. cbn [created destroyed flat_map app]. rewrite app_nil_r. apply Permutation_app_comm.
  - destruct (var w i) as [x|] eqn:V; [|discriminate].
    destruct (copyable (via x) && negb (wrapped x)); [|discriminate]. injection S as <- <-. split.
    + intros j y Y. cbn [add vars things] in *.
      destruct (nth_snoc _ _ _ _ Y) as [H|(_ & H)]; [apply W in H; lia|]. injection H as ->.
      eapply W, var_nth; eauto.
    + cbn [created destroyed flat_map app]. rewrite (owned_same w (add w x)); [reflexivity|reflexivity|]. intros o O.
      destruct (nth_some _ _ O) as (t & T). eapply holding_same; [exact T|exact T|reflexivity|].
      unfold add. rewrite owners_add. destruct (owns o (Some x)) eqn:E; cbn [b2n]; [|lia].
      pose proof (tally_pos o _ _ _ (var_nth _ _ _ V) E). change (tally o (vars w)) with (owners w o) in *. lia.
  - destruct (var w i) as [x|] eqn:V; [|discriminate]. pose proof (var_nth _ _ _ V) as V1.
    pose proof (W _ _ V1) as B. pose proof (nth_lt _ _ _ V1) as I.
    destruct (wrapped x).
    + injection S as <- <-. split.
      * apply (sound_set w i None); auto; [discriminate|]. apply (length_forget (set w i None)).
      * cbn [created destroyed flat_map app]. now rewrite (owned_forget w i x None).
    + assert (Q : sound (set w i None)) by (apply (sound_set w i None); auto; discriminate).
      destruct (owning (via x)) eqn:O; cbn [andb] in S.
      * destruct (nth_some _ _ B) as (t & T). unfold last_owner, value_of in S. rewrite T in S.
        assert (P1 : 1 <= owners w (object x)) by (eapply tally_pos; [exact V1|now rewrite owns_self]).
        pose proof (owners_set w i (Some x) None (object x) (things w) V1) as Z. rewrite owns_self, O in Z. cbn [owns b2n] in Z.
        change {| vars := upd (vars w) i None; things := things w |} with (set w i None) in Z.
        destruct ((owners w (object x) =? 1) && (forgotten t =? 0)) eqn:La; injection S as <- <-; split; auto.
        -- apply andb_prop in La as (La1 & La2). apply Nat.eqb_eq in La1, La2. cbn [created destroyed flat_map app].
           rewrite !owned_holding. cbn [set things]. apply (flat_map_one _ _ _ (object x)).
           ++ apply seq_NoDup.
           ++ apply in_seq. lia.
           ++ unfold holding. rewrite T. destruct (Nat.eqb_spec (owners w (object x) + forgotten t) 0); [lia|reflexivity].
           ++ unfold holding. cbn [set things]. rewrite T. destruct (Nat.eqb_spec (owners (set w i None) (object x) + forgotten t) 0); [reflexivity|lia].
           ++ intros y N. unfold holding. cbn [set things].
              pose proof (owners_set w i (Some x) None y (things w) V1) as Z'. rewrite owns_other in Z' by auto. cbn [owns b2n] in Z'.
              change {| vars := upd (vars w) i None; things := things w |} with (set w i None) in Z'.
              replace (owners (set w i None) y) with (owners w y) by lia. reflexivity.
        -- cbn [created destroyed flat_map app]. rewrite (owned_same w (set w i None)); [reflexivity|reflexivity|]. intros o Ho.
           destruct (nth_some _ _ Ho) as (u & U). eapply holding_same; [exact U|exact U|reflexivity|].
           destruct (Nat.eq_dec o (object x)) as [->|N].
           ++ rewrite T in U. injection U as <-.
              destruct (Nat.eqb_spec (owners w (object x)) 1); cbn [andb] in La; [apply Nat.eqb_neq in La|]; lia.
           ++ pose proof (owners_set w i (Some x) None o (things w) V1) as Z'. rewrite owns_other in Z' by auto. cbn [owns b2n] in Z'.
              change {| vars := upd (vars w) i None; things := things w |} with (set w i None) in Z'. lia.
      * injection S as <- <-. split; auto. cbn [created destroyed flat_map app]. rewrite (owned_set w i x None V); [reflexivity|].
        intros o _. cbn. now rewrite O.
  - destruct (var w i) as [x|] eqn:V; [|discriminate]. pose proof (var_nth _ _ _ V) as V1.
    destruct (wrapped x); [discriminate|]. injection S as <- <-. split.
    + apply (sound_set w i _); auto; [intros y [= <-]; exact (W _ _ V1)|eapply nth_lt; eauto].
    + cbn [created destroyed flat_map app]. rewrite (owned_set w i x _ V); [reflexivity|]. reflexivity.
  - destruct (var w i) as [x|] eqn:V; [|discriminate]. pose proof (var_nth _ _ _ V) as V1.
    destruct (wrapped x && same_kind (via x) k); [|discriminate]. injection S as <- <-. split.
    + apply (sound_set w i _); auto; [intros y [= <-]; exact (W _ _ V1)|eapply nth_lt; eauto].
    + cbn [created destroyed flat_map app]. rewrite (owned_set w i x _ V); [reflexivity|]. reflexivity.
  - destruct (var w i) as [x|] eqn:V; [|discriminate]. pose proof (var_nth _ _ _ V) as V1.
    destruct (wrapped x); [|discriminate]. injection S as <- <-. split.
    + apply (sound_set w i _); auto; [intros y [= <-]; exact (W _ _ V1)|eapply nth_lt; eauto|].
      apply (length_forget (set w i _)).
    + cbn [created destroyed flat_map app]. rewrite (owned_forget w i x _ V); [reflexivity|exact (W _ _ V1)|reflexivity].
  - destruct (var w i) as [x|] eqn:V; [|discriminate]. injection S as <- <-. split; auto.
  - destruct (var w i) as [x|] eqn:V; [|discriminate]. injection S as <- <-. split; auto.
  - destruct (var w i) as [x|] eqn:V; [|discriminate]. destruct (var w j); [|discriminate]. injection S as <- <-. split; auto.
Qed.

Lemma run_owned ps : forall w w' es, sound w -> run w ps = Some (w', es) ->
  Permutation (created ps ++ owned w) (destroyed es ++ owned w').
Proof.
  induction ps as [|p ps IH]; intros w w' es W H; cbn [run] in H.
  - injection H as <- <-. reflexivity.
  - destruct (step w p) as [[w1 e]|] eqn:E; [|discriminate]. destruct (run w1 ps) as [[w2 es2]|] eqn:G; [|discriminate].
    injection H as <- <-. destruct (step_owned _ _ _ _ W E) as (W1 & P). specialize (IH _ _ _ W1 G).
    change (p :: ps) with ([p] ++ ps). change (e :: es2) with ([e] ++ es2).
    unfold created, destroyed in *. rewrite !flat_map_app.
    rewrite <- (app_assoc _ _ (owned w2)), <- IH. rewrite !app_assoc, (Permutation_app_comm (flat_map _ [e])), <- !app_assoc.
    rewrite <- P. rewrite !app_assoc. apply Permutation_app_tail, Permutation_app_comm.
Qed.

Lemma sound_start : sound start.
Proof. intros i x H. destruct i; discriminate. Qed.

Lemma destroyed_render {L} (f : nat -> L) es : destroyed (map (render f) es) = destroyed es.
Proof. induction es as [|e es IH]; [reflexivity|]. cbn. unfold destroyed in IH. rewrite IH. now destruct e. Qed.
