(** Properties C30 and C57: buffered streams. *)
From Verif Require Import Base StreamSpec StreamModel StreamProofs.
Local Open Scope res_scope.

(** ** C30: [read_map_while] *)

(** Full statement: for every reader that keeps its contract, every content,
    every start [n] and limit [max].  Proved for [n] below the limit; missing is
    [n] at or beyond it, where the code panics ([stream_map_while_refuted]).
    The end [e] of the longest run is reported together with a prefix of the
    data that shows it; more data is asked for exactly when the end is not
    determined. *)
Theorem stream_map_while_partial : forall (v : view) buf n max p, honest v -> below n max ->
  exists e r, read_map_while v buf n max p = Ok (e, r) /\
  match r with
  | Cont map => ends_at p max buf n e /\ (exists more, buf = map ++ more) /\
      (e < length map \/ max = Some e /\ length map = e)
  | Break m => undetermined p max buf n /\ e = Nat.max n (length buf) /\ more_min m = e + 1 /\ more_max m = max
  end.
Proof.
  intros v buf n max p HV B. destruct (read_map_while_ok p v buf n max HV B) as (e & r & E & K). exists e, r. split; [exact E|].
  destruct r as [m|map].
  - destruct K as (A1 & A2 & ->). auto.
  - destruct K as (A1 & A2 & A3 & _). auto.
Qed.
(** The end of a run is unique, and it cannot be both known and undetermined:
    so the answer does not depend on how much the reader shows. *)
Theorem stream_map_while_views_partial : forall (v w : view) buf n max p e r e' r', honest v -> honest w -> below n max ->
  read_map_while v buf n max p = Ok (e, r) -> read_map_while w buf n max p = Ok (e', r') ->
  e = e' /\ match r, r' with Cont _, Cont _ => True | Break m, Break m' => m = m' | _, _ => False end.
Proof.
  intros v w buf n max p e r e' r' HV HW B E E'.
  destruct (read_map_while_ok p v buf n max HV B) as (e1 & r1 & E1 & K1). rewrite E in E1. injection E1 as <- <-.
  destruct (read_map_while_ok p w buf n max HW B) as (e2 & r2 & E2 & K2). rewrite E' in E2. injection E2 as <- <-.
  destruct r as [m|map], r' as [m'|map'].
  - destruct K1 as (-> & _ & ->), K2 as (-> & _ & ->). auto.
  - exfalso. eapply ends_not_undetermined; [apply K2|apply K1].
  - exfalso. eapply ends_not_undetermined; [apply K1|apply K2].
  - split; [|exact I]. eapply ends_unique; [apply K1|apply K2].
Qed.
Lemma ends_resume p max buf n k e : run p buf n k -> n <= k -> ends_at p max buf k e -> ends_at p max buf n e.
Proof.
  intros [_ R] L [[A1 A2] C]. split.
  - split; [lia|]. intros i Hi. destruct (Nat.le_gt_cases k i); [apply A2; lia|apply R; lia].
  - destruct C as [C|[C1 C2]]; [left; exact C|right; split; [exact C1|lia]].
Qed.
(** Data may arrive in any pieces: going on from the position left by a request
    for more finds what a single call on all of the data finds. *)
Theorem stream_map_while_resume_partial : forall (v w : view) buf more n max p e m e' map, honest v -> honest w -> below n max ->
  read_map_while v buf n max p = Ok (e, Break m) ->
  read_map_while w (buf ++ more) e max p = Ok (e', Cont map) -> ends_at p max (buf ++ more) n e'.
Proof.
  intros v w buf more n max p e m e' map HV HW B E E'.
  destruct (read_map_while_ok p v buf n max HV B) as (e1 & r1 & E1 & K1). rewrite E in E1. injection E1 as <- <-.
  destruct K1 as (-> & [R U] & _).
  destruct (read_map_while_ok p w (buf ++ more) (Nat.max n (length buf)) max HW U) as (e2 & r2 & E2 & K2). rewrite E' in E2. injection E2 as <- <-.
  eapply ends_resume; [|apply Nat.le_max_l|apply K2]. destruct R as [R1 R2]. split; [exact R1|].
  intros i Hi. destruct (R2 i Hi) as (c & C1 & C2). exists c. split; [|exact C2].
  rewrite nth_error_app1 by (apply nth_error_Some; congruence). exact C1.
Qed.
(** Beside: digits followed by a space, limit 5, read in two pieces. *)
Definition is_dig (i : nat) (c : N) : bool := (0x30 <=? c)%N && (c <=? 0x39)%N.
Example stream_map_while_case :
  honest slice_view /\ below 1 (Some 5) /\
  read_map_while slice_view [0x2d; 0x31; 0x32]%N 1 (Some 5) is_dig = Ok (3, Break (mkMore 4 (Some 5))) /\
  read_map_while slice_view ([0x2d; 0x31; 0x32] ++ [0x33; 0x20])%N 3 (Some 5) is_dig = Ok (4, Cont [0x2d; 0x31; 0x32; 0x33; 0x20]%N).
Proof. split; [exact slice_honest|]. split; [cbn; lia|]. split; vm_compute; reflexivity. Qed.
(** A limit that leaves nothing to read makes the function panic, though the
    answer (nothing) is determined. *)
Theorem stream_map_while_refuted :
  honest slice_view /\ read_map_while slice_view [0x31]%N 0 (Some 0) is_dig = Panic.
Proof. split; [exact slice_honest|reflexivity]. Qed.
(** The documentation promises one byte beyond the end; at the limit there is none. *)
Theorem stream_map_while_one_more_refuted :
  exists buf max e map, read_map_while slice_view buf 0 max is_dig = Ok (e, Cont map) /\ ~ e < length map.
Proof. exists [0x31; 0x32]%N, (Some 2), 2, [0x31; 0x32]%N. split; [reflexivity|]. cbn. lia. Qed.

(** ** C57: writing to a vector *)

(** Whatever the vector holds, whatever its spare capacity, and however it grows:
    [write] succeeds and appends the data. *)
Theorem stream_write : forall grow w d, exists spare, vec_write grow w d = Ok (mkVec (v_data w ++ d) spare).
Proof. exact write_ok. Qed.
Fixpoint writes (w : vec) (ds : list (nat * list N)) : res vec :=
  match ds with [] => Ok w | (grow, d) :: ds => do w <- vec_write grow w d; writes w ds end.
(** Any sequence of writes leaves their concatenation. *)
Theorem stream_writes : forall ds w, exists spare, writes w ds = Ok (mkVec (v_data w ++ concat (map snd ds)) spare).
Proof.
  induction ds as [|[grow d] ds IH]; intros w; cbn [writes map concat snd].
  - exists (v_spare w). rewrite app_nil_r. destruct w. reflexivity.
  - destruct (write_ok grow w d) as [s ->]. cbn [bind]. destruct (IH (mkVec (v_data w ++ d) s)) as [s' ->].
    exists s'. cbn [v_data]. rewrite <- app_assoc. reflexivity.
Qed.
Example stream_writes_case :
  writes (mkVec [7]%N [Some 1; None]%N) [(0, [1; 2]%N); (3, [3; 4; 5]%N)] = Ok (mkVec [7; 1; 2; 3; 4; 5]%N [None; None; None]).
Proof. reflexivity. Qed.

(** The mapping: what is held stays, the mapping is as long as asked for, and a
    mapping that is long enough already stays what it is. *)
Theorem stream_map_exact : forall grow w min max,
  let want := match max with None => min | Some m => m end in
  let w' := vec_map grow w min max in
  v_data w' = v_data w /\ want <= length (v_spare w') /\
  (want <= length (v_spare w) -> v_spare w' = v_spare w) /\
  (length (v_spare w) < want -> Forall (eq None) (v_spare w')).
Proof.
  intros grow w min max want w'. unfold w', vec_map, reserve. fold want.
  destruct (Nat.leb_spec want (length (v_spare w))) as [L|L].
  - repeat split; [exact L|lia].
  - cbn. split; [reflexivity|]. split; [rewrite repeat_length; lia|]. split; [lia|]. intros _.
    apply Forall_forall. intros x Hx. apply repeat_spec in Hx. symmetry. exact Hx.
Qed.
(** Storing into the mapping changes exactly the bytes stored to. *)
Theorem stream_store_exact : forall w i d w', vec_store w i d = Ok w' <->
  i + length d <= length (v_spare w) /\ v_data w' = v_data w /\ length (v_spare w') = length (v_spare w) /\
  forall j, nth_error (v_spare w') j =
    if (i <=? j) && (j <? i + length d) then option_map Some (nth_error d (j - i)) else nth_error (v_spare w) j.
Proof.
  assert (NS : forall (l : list (option N)) i d j, i + length d <= length l ->
    nth_error (splice l i (map Some d)) j =
    if (i <=? j) && (j <? i + length d) then option_map Some (nth_error d (j - i)) else nth_error l j).
  { intros l i d j L. unfold splice. rewrite map_length.
    destruct (Nat.leb_spec i j) as [A|A]; cbn [andb].
    - rewrite nth_error_app2 by (rewrite firstn_length; lia). rewrite firstn_length_le by lia.
      destruct (Nat.ltb_spec j (i + length d)) as [B|B].
      + rewrite nth_error_app1 by (rewrite map_length; lia). apply nth_error_map.
      + rewrite nth_error_app2 by (rewrite map_length; lia). rewrite map_length.
        rewrite <- (firstn_skipn (i + length d) l) at 2. rewrite nth_error_app2 by (rewrite firstn_length; lia).
        rewrite firstn_length_le by lia. f_equal. lia.
    - rewrite nth_error_app1 by (rewrite firstn_length; lia). rewrite <- (firstn_skipn i l) at 2.
      rewrite nth_error_app1 by (rewrite firstn_length; lia). reflexivity. }
  intros w i d w'. unfold vec_store. destruct (Nat.leb_spec (i + length d) (length (v_spare w))) as [L|L]; cbn.
  2:{ split; [discriminate|lia]. }
  split.
  - intros E. injection E as <-. cbn. split; [exact L|]. split; [reflexivity|]. split; [|intros j; apply NS, L].
    unfold splice. rewrite !app_length, map_length, firstn_length, skipn_length. lia.
  - intros (_ & E1 & E2 & E3). destruct w' as [da sp]. cbn in *. subst da. f_equal. f_equal.
    assert (X : forall a b : list (option N), (forall j, nth_error a j = nth_error b j) -> a = b).
    { induction a as [|x a IH]; intros [|y b] H; [reflexivity|discriminate (H 0)|discriminate (H 0)|].
      pose proof (H 0) as H0. injection H0 as ->. f_equal. apply IH. intros j. apply (H (S j)). }
    apply X. intros j. rewrite E3. apply NS, L.
Qed.
Lemma initialised_iff l d : initialised l = Some d <-> l = map Some d.
Proof.
  revert d. induction l as [|[c|] l IH]; intros d; cbn.
  - split; [intros H; injection H as <-; reflexivity|]. destruct d; [reflexivity|discriminate].
  - destruct (initialised l) as [e|].
    + split; [intros H; injection H as <-; cbn; f_equal; apply IH; reflexivity|].
      destruct d as [|x d]; [discriminate|]. cbn. intros H. injection H as -> H. apply IH in H. injection H as ->. reflexivity.
    + split; [discriminate|]. destruct d as [|x d]; [discriminate|]. cbn. intros H. injection H as -> H. apply IH in H. discriminate.
  - split; [discriminate|]. destruct d; discriminate.
Qed.
(** A commit is allowed exactly if what is committed is in the mapping and has
    been stored, and appends exactly this; the rest of the mapping remains. *)
Theorem stream_commit_exact : forall w len w', vec_commit w len = Ok w' <->
  exists d rest, v_spare w = map Some d ++ rest /\ length d = len /\ w' = mkVec (v_data w ++ d) rest.
Proof.
  intros w len w'. unfold vec_commit. destruct (Nat.leb_spec len (length (v_spare w))) as [L|L]; cbn.
  2:{ split; [discriminate|]. intros (d & rest & E & El & _). rewrite E, app_length, map_length in L. lia. }
  split.
  - destruct (initialised _) as [d|] eqn:E; [|discriminate]. intros H. injection H as <-. apply initialised_iff in E.
    exists d, (skipn len (v_spare w)). split; [rewrite <- E; symmetry; apply firstn_skipn|]. split; [|reflexivity].
    apply (f_equal (@length _)) in E. rewrite firstn_length_le, map_length in E by lia. symmetry. exact E.
  - intros (d & rest & E & <- & ->). rewrite E.
    replace (firstn (length d) (map Some d ++ rest)) with (map Some d)
      by (rewrite <- (map_length Some d), firstn_app, Nat.sub_diag, firstn_all; cbn; rewrite app_nil_r; reflexivity).
    rewrite (proj2 (initialised_iff _ d) eq_refl). f_equal. f_equal.
    rewrite <- (map_length Some d), skipn_app, Nat.sub_diag, skipn_all. reflexivity.
Qed.
(** Mapping without a check is allowed exactly if all of it has been stored, and
    yields exactly this. *)
Theorem stream_unchecked_exact : forall grow w len w' d, vec_map_unchecked grow w len = Ok (w', d) <->
  w' = vec_map grow w len (Some len) /\ length d = len /\ exists rest, v_spare w' = map Some d ++ rest.
Proof.
  intros grow w len w' d. unfold vec_map_unchecked. set (m := vec_map grow w len (Some len)).
  destruct (Nat.leb_spec len (length (v_spare m))) as [L|L]; cbn.
  2:{ split; [discriminate|]. intros (-> & El & rest & E). rewrite E, app_length, map_length in L. lia. }
  split.
  - destruct (initialised _) as [e|] eqn:E; [|discriminate]. intros H. injection H as <- <-. apply initialised_iff in E.
    split; [reflexivity|]. split.
    + apply (f_equal (@length _)) in E. rewrite firstn_length_le, map_length in E by lia. symmetry. exact E.
    + exists (skipn len (v_spare m)). rewrite <- E. symmetry. apply firstn_skipn.
  - intros (-> & <- & rest & E). rewrite E.
    replace (firstn (length d) (map Some d ++ rest)) with (map Some d)
      by (rewrite <- (map_length Some d), firstn_app, Nat.sub_diag, firstn_all; cbn; rewrite app_nil_r; reflexivity).
    rewrite (proj2 (initialised_iff _ d) eq_refl). reflexivity.
Qed.
Example stream_commit_case :
  vec_commit (mkVec [7]%N [Some 1; Some 2; None]%N) 2 = Ok (mkVec [7; 1; 2]%N [None]) /\
  vec_commit (mkVec [7]%N [Some 1; Some 2; None]%N) 3 = Panic /\
  vec_map_unchecked 0 (mkVec [7]%N [Some 1; Some 2; None]%N) 2 = Ok (mkVec [7]%N [Some 1; Some 2; None]%N, [1; 2]%N) /\
  vec_store (mkVec [7]%N [Some 1; Some 2; None]%N) 1 [8; 9]%N = Ok (mkVec [7]%N [Some 1; Some 8; Some 9]%N).
Proof. repeat split. Qed.

Print Assumptions stream_map_while_partial.
Print Assumptions stream_map_while_views_partial.
Print Assumptions stream_map_while_resume_partial.
Print Assumptions stream_map_while_refuted.
Print Assumptions stream_map_while_one_more_refuted.
Print Assumptions stream_write.
Print Assumptions stream_writes.
Print Assumptions stream_map_exact.
Print Assumptions stream_store_exact.
Print Assumptions stream_commit_exact.
Print Assumptions stream_unchecked_exact.
