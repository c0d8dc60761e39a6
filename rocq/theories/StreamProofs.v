(** Proofs about buffered streams. *)
From Verif Require Import Base StreamSpec StreamModel.
Local Open Scope res_scope.

Lemma slice_honest : honest slice_view.
Proof. intros data min max L. unfold slice_view. lia. Qed.

(** [map] is a prefix of [buf] of at least [n] bytes. *)
Definition shows (buf map : list N) (n : nat) : Prop := n <= length map /\ exists more, buf = map ++ more.

Lemma firstn_shows buf k n : n <= k -> n <= length buf -> shows buf (firstn k buf) n.
Proof.
  intros A B. split; [rewrite firstn_length; lia|]. exists (skipn k buf). symmetry. apply firstn_skipn.
Qed.
Lemma shows_firstn buf map k n : shows buf map n -> n <= k -> shows buf (firstn k map) n.
Proof.
  intros [A [more ->]] B. split; [rewrite firstn_length; lia|]. exists (skipn k map ++ more).
  rewrite app_assoc, firstn_skipn. reflexivity.
Qed.
Lemma read_map_ok v buf min max : honest v ->
  match read_map v buf min max with
  | Break m => length buf < min /\ m = mkMore min max
  | Cont map => shows buf map min
  end.
Proof.
  intros H. unfold read_map. destruct (min <=? length buf) eqn:E.
  - apply Nat.leb_le in E. specialize (H buf min max E). apply firstn_shows; lia.
  - apply Nat.leb_gt in E. split; [exact E|reflexivity].
Qed.

Lemma scan_ok p todo : forall n map, skipn n map = todo -> n <= length map ->
  let '(e, stop) := scan p n todo in
  run p map n e /\ e <= length map /\
  if stop then (exists c, nth_error map e = Some c /\ p e c = false) else e = length map.
Proof.
  induction todo as [|c todo IH]; intros n map E L; cbn [scan].
  - assert (X : length map <= n).
    { apply (f_equal (@length N)) in E. rewrite skipn_length in E. cbn in E. lia. }
    split; [split; [lia|intros; lia]|]. split; [lia|lia].
  - assert (A : nth_error map n = Some c).
    { rewrite <- (firstn_skipn n map) at 1. rewrite nth_error_app2 by (rewrite firstn_length; lia).
      rewrite firstn_length, Nat.min_l, Nat.sub_diag by lia. rewrite E. reflexivity. }
    assert (A' : n < length map) by (apply nth_error_Some; congruence).
    destruct (p n c) eqn:P; cbn [negb].
    + assert (T : skipn (S n) map = todo).
      { rewrite <- (firstn_skipn n map), E. rewrite skipn_app. rewrite skipn_all2 by (rewrite firstn_length; lia).
        rewrite firstn_length, Nat.min_l by lia. replace (S n - n) with 1 by lia. reflexivity. }
      specialize (IH (S n) map T A'). destruct (scan p (S n) todo) as [e stop].
      destruct IH as ([I1 I2] & I3 & I4). split; [|split; [exact I3|exact I4]].
      split; [lia|]. intros i Hi. destruct (Nat.eq_dec i n) as [->|]; [exists c; auto|]. apply I2. lia.
    + split; [split; [lia|intros; lia]|]. split; [lia|]. exists c. auto.
Qed.
Lemma shows_nth buf map n i c : shows buf map n -> nth_error map i = Some c -> nth_error buf i = Some c.
Proof.
  intros [_ [more ->]] H. rewrite nth_error_app1; [exact H|]. apply nth_error_Some. congruence.
Qed.
Lemma run_shows p buf map n e k : shows buf map k -> run p map n e -> run p buf n e.
Proof.
  intros SH [A B]. split; [exact A|]. intros i Hi. destruct (B i Hi) as (c & C & P). exists c. split; [|exact P].
  eapply shows_nth; eassumption.
Qed.
Lemma run_trans p buf a b c : run p buf a b -> run p buf b c -> run p buf a c.
Proof.
  intros [A1 A2] [B1 B2]. split; [lia|]. intros i Hi. destruct (Nat.lt_ge_cases i b); [apply A2|apply B2]; lia.
Qed.
Lemma run_refl p buf a : run p buf a a.
Proof. split; [lia|intros; lia]. Qed.

(** The result of [read_map_while]. *)
Definition found (p : nat -> N -> bool) (max : option nat) (buf : list N) (n e : nat) (map : list N) : Prop :=
  ends_at p max buf n e /\ (exists more, buf = map ++ more) /\
  (e < length map \/ (max = Some e /\ length map = e)) /\ (forall m, max = Some m -> length map <= m).
Lemma loop_ok p v buf max : honest v -> forall fuel n0 n, length buf < fuel + n -> 0 < fuel ->
  run p buf n0 n -> (n = n0 \/ n <= length buf) -> below n max ->
  exists e r, read_map_while_loop fuel v buf n max p = Ok (e, r) /\
  match r with
  | Break m => e = Nat.max n0 (length buf) /\ undetermined p max buf n0 /\ m = mkMore (e + 1) max
  | Cont map => found p max buf n0 e map
  end.
Proof.
  intros HV. induction fuel as [|fuel IH]; intros n0 n F F0 R NL BE; [lia|]. cbn [read_map_while_loop].
  pose proof (read_map_ok v buf (n + 1) max HV) as M. destruct (read_map v buf (n + 1) max) as [m|map].
  - destruct M as [M ->]. exists n, (Break (mkMore (n + 1) max)). split; [reflexivity|].
    assert (E : n = Nat.max n0 (length buf)) by (destruct R; lia). split; [exact E|].
    split; [|reflexivity]. unfold undetermined. rewrite <- E. split; assumption.
  - set (map' := match max with None => map | Some m => firstn (Nat.min (length map) m) map end).
    assert (SH : shows buf map' (n + 1)).
    { unfold map'. destruct max as [m|]; [|exact M]. apply shows_firstn; [exact M|]. cbn in BE.
      destruct M as [M _]. lia. }
    assert (ML : forall m, max = Some m -> length map' <= m).
    { intros m ->. unfold map'. rewrite firstn_length. lia. }
    clearbody map'. destruct SH as [SH1 SH2]. rewrite (proj2 (Nat.leb_le _ _)) by exact SH1.
    replace (match max with None => true | Some m => length map' <=? m end) with true
      by (destruct max as [m|]; [symmetry; apply Nat.leb_le, ML; reflexivity|reflexivity]).
    pose proof (scan_ok p (skipn n map') n map' eq_refl ltac:(lia)) as SC.
    destruct (scan p n (skipn n map')) as [e stop]. destruct SC as (S1 & S2 & S3).
    assert (SH : shows buf map' (n + 1)) by (split; assumption).
    assert (R' : run p buf n0 e) by (eapply run_trans; [exact R|eapply run_shows; eassumption]).
    destruct stop.
    + exists e, (Cont map'). split; [reflexivity|]. destruct S3 as (c & S3 & S4).
      assert (S5 : e < length map') by (apply nth_error_Some; congruence).
      split; [|split; [exact SH2|split; [left; exact S5|exact ML]]]. split; [exact R'|]. left. split.
      * destruct max as [m|]; [|exact I]. specialize (ML m eq_refl). cbn. lia.
      * exists c. split; [eapply shows_nth; eassumption|exact S4].
    + subst e. destruct max as [m|].
      * specialize (ML m eq_refl). destruct (m <=? length map') eqn:EM.
        -- apply Nat.leb_le in EM. exists (length map'), (Cont map'). split; [reflexivity|].
           assert (X : m = length map') by lia. subst m.
           split; [|split; [exact SH2|split; [right; split; reflexivity|intros m' E'; injection E' as <-; lia]]].
           split; [exact R'|]. right. split; [reflexivity|]. destruct R. lia.
        -- apply Nat.leb_gt in EM.
           assert (LB : length map' <= length buf) by (destruct SH2 as [more ->]; rewrite app_length; lia).
           apply IH; [lia|lia|exact R'|right; exact LB|exact EM].
      * assert (LB : length map' <= length buf) by (destruct SH2 as [more ->]; rewrite app_length; lia).
        apply IH; [lia|lia|exact R'|right; exact LB|exact I].
Qed.
Theorem read_map_while_ok p v buf n max : honest v -> below n max ->
  exists e r, read_map_while v buf n max p = Ok (e, r) /\
  match r with
  | Break m => e = Nat.max n (length buf) /\ undetermined p max buf n /\ m = mkMore (e + 1) max
  | Cont map => found p max buf n e map
  end.
Proof.
  intros HV BE. unfold read_map_while. apply loop_ok; [exact HV|lia|lia|apply run_refl|left; reflexivity|exact BE].
Qed.

(** The end of a run is unique, and known or not. *)
Lemma ends_unique p max buf n e e' : ends_at p max buf n e -> ends_at p max buf n e' -> e = e'.
Proof.
  assert (W : forall e e', ends_at p max buf n e -> ends_at p max buf n e' -> e <= e').
  { clear. intros e e' [[A1 A2] A3] [[B1 B2] B3]. destruct (Nat.le_gt_cases e e') as [|G]; [assumption|exfalso].
    destruct B3 as [[_ (c & C1 & C2)]|[-> B3]].
    - destruct (A2 e' ltac:(lia)) as (c' & C3 & C4). congruence.
    - destruct A3 as [[A3 _]|[A3 _]]; [cbn in A3; lia|injection A3 as ->; lia]. }
  intros A B. apply Nat.le_antisymm; apply W; assumption.
Qed.
Lemma ends_not_undetermined p max buf n e : ends_at p max buf n e -> undetermined p max buf n -> False.
Proof.
  intros [[A1 A2] A3] [[B1 B2] B3]. destruct A3 as [[_ (c & C1 & C2)]|[-> A3]].
  - assert (e < length buf) by (apply nth_error_Some; congruence).
    destruct (B2 e ltac:(lia)) as (c' & C3 & C4). congruence.
  - cbn in B3. assert (X : e - 1 < length buf).
    { destruct (A2 (e - 1) ltac:(lia)) as (c & C1 & _). apply nth_error_Some. congruence. }
    lia.
Qed.

(** ** Writing *)

Lemma initialised_some d l : initialised (map Some d) = Some d /\ initialised (firstn (length d) (map Some d ++ l)) = Some d.
Proof.
  induction d as [|c d [IH1 IH2]]; [split; reflexivity|]. cbn. rewrite IH1, IH2. split; reflexivity.
Qed.
Lemma write_ok grow w d : exists spare, vec_write grow w d = Ok (mkVec (v_data w ++ d) spare).
Proof.
  unfold vec_write, vec_map, vec_store. set (w' := reserve grow w (length d)).
  assert (A : length d <= length (v_spare w') /\ v_data w' = v_data w).
  { unfold w', reserve. destruct (_ <=? _) eqn:E; [apply Nat.leb_le in E; auto|]. cbn. rewrite repeat_length. split; [lia|reflexivity]. }
  destruct A as [A1 A2]. rewrite (proj2 (Nat.leb_le _ _)) by lia. cbn [bind]. unfold vec_commit. cbn [v_spare v_data].
  rewrite splice_length by (rewrite map_length; lia). rewrite (proj2 (Nat.leb_le _ _)) by lia.
  unfold splice. cbn [firstn app]. rewrite (proj2 (initialised_some d _)). rewrite A2. eexists. reflexivity.
Qed.
