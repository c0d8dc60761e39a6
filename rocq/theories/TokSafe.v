(** Proofs about the streaming JSON tokenizer: no step panics. *)
From Verif Require Import Base StreamSpec StreamModel StreamProofs TokModel TokProofs.
Local Open Scope res_scope.

Definition range_ok (buf : list N) (r : range) (i : nat) : Prop := snd r <= i /\ run digit_p buf (fst r) (snd r).
Definition num_ok (buf : list N) (n : num) (i : nat) : Prop :=
  range_ok buf (n_int n) i /\ (fst (n_frac n) <> 0 -> range_ok buf (n_frac n) i) /\
  (fst (n_exp n) <> 0 -> range_ok buf (n_exp n) i) /\
  (fst (n_frac n) <> 0 -> snd (n_int n) < fst (n_frac n)) /\
  (fst (n_exp n) <> 0 -> snd (n_int n) < fst (n_exp n) /\ snd (n_frac n) < fst (n_exp n)) /\
  (fst (n_frac n) = 0 -> snd (n_frac n) = 0).
Definition cur (n : num) : range :=
  if negb (fst (n_exp n) =? 0) then n_exp n else if negb (fst (n_frac n) =? 0) then n_frac n else n_int n.
Definition inv (buf : list N) (d : dec) : Prop :=
  match state d with
  | SNone => True
  | SWhitespace => 1 <= idx d <= length buf /\ run ws_p buf 0 (idx d)
  | SItem => 1 <= idx d <= length buf
  | SNumber n => 1 <= idx d <= length buf /\ num_ok buf n (idx d) /\ run digit_p buf (fst (cur n)) (idx d)
  | SNumberDone n => 1 <= idx d <= length buf /\ num_ok buf n (idx d)
  | SString s => 1 <= idx d <= length buf /\ s <= idx d
  | SEscape => 2 <= idx d <= length buf
  | SUnicode s => 3 <= s /\ s <= idx d <= length buf /\ idx d < s + 4 /\ run hex_p buf s (idx d)
  | STrail s l => 7 <= s /\ s <= idx d <= length buf /\ idx d < s + 6 /\ is_lead l = true /\
                  run (trail_char s) buf s (idx d)
  end.
Definition wf (buf : list N) (d : dec) : Prop :=
  match done d with Some l => 1 <= l <= length buf | None => inv buf d end.
(** Every step uses up something. *)
Definition phi (buf : list N) (d : dec) : nat :=
  match done d with
  | Some l => 8 * (length buf - l) + 4
  | None =>
      match state d with
      | SNone => 8 * length buf + 4
      | SNumber _ => 8 * (length buf - idx d) + 6
      | SUnicode s | STrail s _ => 8 * (length buf - s) + 6
      | _ => 8 * (length buf - idx d) + 5
      end
  end.
Definition good (buf : list N) (d d' : dec) (t : option Token) : Prop :=
  wf buf d' /\ phi buf d' < phi buf d.

Ltac phis := unfold phi; cbn -[Nat.mul]; repeat match goal with H : done ?x = _ |- _ => rewrite H | H : state ?x = _ |- _ => rewrite H end; cbn -[Nat.mul]; lia.

Lemma wf_new buf : wf buf new.
Proof. exact I. Qed.
Lemma range_more buf r i more : range_ok buf r i -> range_ok (buf ++ more) r i.
Proof. intros [A B]. split; [exact A|apply run_more, B]. Qed.
Lemma num_more buf n i more : num_ok buf n i -> num_ok (buf ++ more) n i.
Proof. intros (A & B & C & D). split; [apply range_more, A|]. split; [intros H; apply range_more, B, H|]. split; [intros H; apply range_more, C, H|exact D]. Qed.
Lemma wf_more buf d more : wf buf d -> wf (buf ++ more) d.
Proof.
  unfold wf, inv. rewrite app_length. destruct (done d); [lia|].
  destruct (state d); intuition auto using run_more, num_more; lia.
Qed.

Lemma at_ok map i c : nth_error map i = Some c -> at_ map i = Ok c.
Proof. unfold at_. intros ->. reflexivity. Qed.
Lemma part_ok map i j : i <= j -> j <= length map -> part map i j = Ok (slice map i j).
Proof.
  intros A B. unfold part. rewrite (proj2 (Nat.leb_le i j)), (proj2 (Nat.leb_le j _)) by assumption. reflexivity.
Qed.
Lemma sub_ok a b : b <= a -> strict_sub a b = Ok (a - b).
Proof. intros A. unfold strict_sub. rewrite (proj2 (Nat.leb_le _ _)) by exact A. reflexivity. Qed.
Lemma slice_ascii p buf map i j : (forall k c, p k c = true -> (c < 128)%N) ->
  (exists more, buf = map ++ more) -> j <= length map -> run p buf i j -> is_utf8 (slice map i j) = true.
Proof.
  intros P [more ->] L R. apply ascii_utf8, Forall_forall. intros c H. apply In_nth_error in H. destruct H as [k H].
  unfold slice in H. assert (K : k < j - i).
  { assert (Z : k < length (firstn (j - i) (skipn i map))) by (apply nth_error_Some; congruence).
    rewrite firstn_length in Z. lia. }
  assert (E : nth_error map (i + k) = Some c).
  { rewrite <- H. transitivity (nth_error (skipn i map) k).
    - destruct (Nat.le_gt_cases (length map) i) as [G|G]; [lia|].
      rewrite <- (firstn_skipn i map) at 1. rewrite nth_error_app2 by (rewrite firstn_length; lia).
      rewrite firstn_length, Nat.min_l by lia. f_equal. lia.
    - rewrite <- (firstn_skipn (j - i) (skipn i map)) at 1. rewrite nth_error_app1; [reflexivity|].
      rewrite firstn_length, skipn_length. lia. }
  destruct R as [_ R]. destruct (R (i + k) ltac:(lia)) as (c' & C1 & C2).
  rewrite nth_error_app1 in C1 by (apply nth_error_Some; congruence).
  apply (P (i + k)). congruence.
Qed.
Lemma ws_ascii : forall (k : nat) c, ws_p k c = true -> (c < 128)%N.
Proof. intros k c. unfold ws_p, is_ws. lia. Qed.
Lemma digit_ascii : forall (k : nat) c, digit_p k c = true -> (c < 128)%N.
Proof. intros k c. unfold digit_p, is_digit. lia. Qed.
Lemma text_ok buf map r i : (exists more, buf = map ++ more) -> range_ok buf r i -> i <= length map ->
  text_of map r = Ok (slice map (fst r) (snd r)).
Proof.
  intros SH [A B] L. unfold text_of. assert (C : fst r <= snd r) by (destruct B; assumption).
  rewrite part_ok by lia. cbn [bind]. unfold from_utf8_unwrap.
  rewrite (slice_ascii digit_p buf) by (solve [exact digit_ascii|exact SH|lia|exact B]). reflexivity.
Qed.
(** What is reported for a number. *)
Definition num_token (map : list N) (n : num) : Token :=
  TNumber (mkNumber map (n_sign n) (slice map (fst (n_int n)) (snd (n_int n)))
    (if negb (fst (n_frac n) =? 0) then Some (slice map (fst (n_frac n)) (snd (n_frac n))) else None)
    (if negb (fst (n_exp n) =? 0) then Some (n_esign n, slice map (fst (n_exp n)) (snd (n_exp n))) else None)).
Lemma raise_number_ok buf map n i : (exists more, buf = map ++ more) -> num_ok buf n i -> i <= length map ->
  raise_number map n = Ok (num_token map n).
Proof.
  intros SH (A & B & C & _) L. unfold raise_number, num_token. rewrite (text_ok buf map (n_int n) i) by assumption. cbn [bind].
  destruct (fst (n_frac n) =? 0) eqn:EF; destruct (fst (n_exp n) =? 0) eqn:EE; cbn [negb bind];
    try (rewrite (text_ok buf map (n_frac n) i) by (try apply B; try apply Nat.eqb_neq; assumption); cbn [bind]);
    try (rewrite (text_ok buf map (n_exp n) i) by (try apply C; try apply Nat.eqb_neq; assumption); cbn [bind]);
    reflexivity.
Qed.

(** ** The states, one by one *)

(** Where a search without a limit ends. *)
Lemma found_here p buf n e map : found p None buf n e map -> exists c,
  nth_error map e = Some c /\ p e c = false /\ e < length map /\ run p buf n e /\
  (exists more, buf = map ++ more) /\ length map <= length buf /\ n <= e.
Proof.
  intros ([R E] & SH & L & _). destruct E as [[_ (c & C & P)]|[E _]]; [|discriminate E].
  destruct L as [L|[L _]]; [|discriminate L]. exists c. destruct SH as [more ->].
  rewrite nth_error_app1 in C by exact L. rewrite app_length.
  split; [exact C|]. split; [exact P|]. split; [exact L|]. split; [exact R|]. split; [exists more; reflexivity|].
  split; [lia|]. destruct R; assumption.
Qed.
Ltac here H := let c := fresh "c" in
  destruct (found_here _ _ _ _ _ H) as (c & HC & HP & HL & HR & HM & HB & HN).

Lemma start_ok buf d c map : done d = None -> state d = SNone -> (exists more, buf = (c :: map) ++ more) ->
  exists d' t, start d (c :: map) = Ok (d', t) /\ good buf d d' t.
Proof.
  intros D SD [more ->]. unfold start. cbn [at_ nth_error bind].
  assert (L : forall A (x : A) l, 1 <= length (x :: l)) by (intros; cbn; lia).
  assert (R : forall p : nat -> N -> bool, p 0 c = true -> run p ((c :: map) ++ more) 0 1).
  { intros p P. split; [lia|]. intros i Hi. replace i with 0 by lia. exists c. auto. }
  assert (R0 : forall p n, run p ((c :: map) ++ more) n n) by (intros; apply run_refl).
  repeat match goal with |- context[if ?b then _ else _] => destruct b eqn:?E end;
    (eexists; eexists; split; [reflexivity|]);
    (split; [unfold wf; cbn; rewrite ?D; cbn; try lia|
             rewrite ?app_length; phis]).
  all: repeat split; cbn; try lia; try apply R; try apply R0; auto; try lia.
  all: try (intros i Hi; lia); try match goal with H : fst _ <> 0 |- _ => cbn in H; congruence end.
Qed.
Lemma whitespace_ok buf d e map : done d = None -> state d = SWhitespace -> inv buf d ->
  found ws_p None buf (idx d) e map ->
  exists d' t, whitespace (set_idx d e) map = Ok (d', t) /\ good buf d d' t.
Proof.
  intros D SD IV F. here F. unfold inv in IV. rewrite SD in IV. destruct IV as [I1 I2]. unfold whitespace.
  cbn [idx set_idx set_done]. rewrite part_ok by lia. cbn [bind]. unfold raise_whitespace, from_utf8_unwrap.
  rewrite (slice_ascii ws_p buf) by (solve [exact ws_ascii|exact HM|lia|eapply run_trans; eassumption]).
  cbn [bind]. eexists. eexists. split; [reflexivity|]. split; [unfold wf; cbn; lia|phis].
Qed.
Lemma item_ok buf d e map : done d = None -> state d = SItem -> inv buf d ->
  found item_p None buf (idx d) e map ->
  exists d' t, item (set_idx d e) map = Ok (d', t) /\ good buf d d' t.
Proof.
  intros D SD IV F. here F. unfold inv in IV. rewrite SD in IV. unfold item.
  cbn [idx set_idx set_done]. rewrite part_ok by lia. cbn [bind].
  eexists. eexists. split; [reflexivity|]. split; [unfold wf; cbn; lia|phis].
Qed.
Lemma num_ok_le buf n i j : num_ok buf n i -> i <= j -> num_ok buf n j.
Proof. intros ([A1 A2] & B & C & D) L. split; [split; [lia|exact A2]|]. split; [|split; [|exact D]]; intros H; [destruct (B H)|destruct (C H)]; split; auto; lia. Qed.
Lemma extend_ok buf n i e : num_ok buf n i -> run digit_p buf (fst (cur n)) i -> run digit_p buf i e -> i <= e ->
  let '(n', r) := extend n e in num_ok buf n' e /\ r = cur n' /\ r = (fst (cur n), e).
Proof.
  intros A B C L. assert (R := run_trans _ _ _ _ _ B C). apply (num_ok_le _ _ _ e) in A; [|exact L].
  destruct A as (A1 & A2 & A3 & A4 & A5 & A6). unfold extend, cur in *.
  assert (Z : forall a, range_ok buf (a, e) e <-> run digit_p buf a e).
  { intros a. split; [intros [_ H]; exact H|intros H; split; [cbn; lia|exact H]]. }
  destruct (fst (n_exp n) =? 0) eqn:E; cbn [negb] in *.
  - apply Nat.eqb_eq in E. destruct (fst (n_frac n) =? 0) eqn:EF; cbn [negb] in *.
    + apply Nat.eqb_eq in EF. unfold num_ok. cbn. rewrite E, EF. cbn. split; [|split; reflexivity].
      split; [apply Z, R|]. repeat split; intros; try contradiction. apply A6, EF.
    + apply Nat.eqb_neq in EF. unfold num_ok. cbn. rewrite E. cbn. rewrite (proj2 (Nat.eqb_neq _ _)) by exact EF.
      split; [|split; reflexivity]. split; [exact A1|]. split; [intros _; apply Z, R|].
      split; [intros H; contradiction|]. split; [exact A4|]. split; [intros H; contradiction|intros H; contradiction].
  - apply Nat.eqb_neq in E. unfold num_ok. cbn. rewrite (proj2 (Nat.eqb_neq _ _)) by exact E.
    split; [|split; reflexivity]. split; [exact A1|]. split; [exact A2|]. split; [intros _; apply Z, R|].
    split; [exact A4|]. split; [exact A5|exact A6].
Qed.
Lemma number_ends_ok buf d0 n0 d n map : state d0 = SNumber n0 -> done d0 = None -> idx d0 <= idx d ->
  state d = SNumber n -> done d = None -> num_ok buf n (idx d) ->
  (exists more, buf = map ++ more) -> 1 <= idx d -> idx d < length map -> length map <= length buf ->
  exists d' t, number_ends d map = Ok (d', t) /\ good buf d0 d' t.
Proof.
  intros SD0 D0 L0 SD D NO SH L1 L2 L3. unfold number_ends. rewrite part_ok by lia. cbn [bind]. unfold number_done. rewrite SD.
  destruct (_ || _).
  - cbn [bind]. eexists. eexists. split; [reflexivity|]. split; [|phis]. unfold wf, inv. cbn. rewrite D. split; [lia|exact NO].
  - rewrite (raise_number_ok buf (slice map 0 (idx d)) n (idx d)).
    + cbn [bind]. eexists. eexists. split; [reflexivity|]. split; [|phis]. unfold wf. cbn. lia.
    + destruct SH as [more ->]. unfold slice. cbn [skipn]. rewrite Nat.sub_0_r. exists (skipn (idx d) map ++ more).
      rewrite app_assoc, firstn_skipn. reflexivity.
    + exact NO.
    + unfold slice. cbn [skipn]. rewrite firstn_length. lia.
Qed.
Lemma number_ok buf d n e map : done d = None -> state d = SNumber n -> inv buf d ->
  found digit_p None buf (idx d) e map ->
  exists d' t, number n (set_idx d e) map = Ok (d', t) /\ good buf d d' t.
Proof.
  intros D SD IV F. here F. unfold inv in IV. rewrite SD in IV. destruct IV as (I1 & I2 & I3). unfold number.
  cbn [idx set_idx set_state]. pose proof (extend_ok buf n (idx d) e I2 I3 HR HN) as X.
  destruct (extend n e) as [n' r]. destruct X as (X1 & X2 & X3). rewrite (at_ok _ _ _ HC). cbn [bind].
  assert (K : forall n2, 
     num_ok buf n2 (e + 1) -> fst (cur n2) = e + 1 -> forall t,
     good buf d (set_idx (set_state (set_state (set_idx d e) (SNumber n')) (SNumber n2)) (e + 1)) t).
  { intros n2 Z1 Z2 t. split.
    - unfold wf, inv. cbn. rewrite D. split; [lia|]. split; [exact Z1|]. rewrite Z2. apply run_refl.
    - phis. }
  assert (EN : exists d' t, number_ends (set_state (set_idx d e) (SNumber n')) map = Ok (d', t) /\ good buf d d' t).
  { eapply number_ends_ok; [exact SD|exact D|exact HN|reflexivity|exact D|exact X1|exact HM|cbn; lia|exact HL|exact HB]. }
  assert (NX : num_ok buf n' (e + 1)) by (eapply num_ok_le; [exact X1|lia]).
  assert (RO : range_ok buf (e + 1, e + 1) (e + 1)) by (split; [cbn; lia|apply run_refl]).
  assert (CI : range_eqb r (n_int n') = true -> fst (n_frac n') = 0 /\ fst (n_exp n') = 0).
  { intros E. apply andb_true_iff in E. destruct E as [E1 E2]. apply Nat.eqb_eq in E1, E2. rewrite X2 in E1.
    destruct X1 as ([_ [Y1 _]] & _ & _ & Y4 & Y5 & _). unfold cur in E1.
    destruct (fst (n_exp n') =? 0) eqn:G1; cbn [negb] in E1; [apply Nat.eqb_eq in G1|apply Nat.eqb_neq in G1].
    - destruct (fst (n_frac n') =? 0) eqn:G2; cbn [negb] in E1; [apply Nat.eqb_eq in G2; split; assumption|].
      apply Nat.eqb_neq in G2. specialize (Y4 G2). lia.
    - destruct (Y5 G1). lia. }
  destruct NX as (NX1 & NX2 & NX3 & NX4 & NX5 & NX6).
  assert (LI : snd (n_int n') <= e) by (destruct X1 as ([X1 _] & _); exact X1).
  assert (LF : snd (n_frac n') <= e).
  { destruct (Nat.eq_dec (fst (n_frac n')) 0) as [Q|Q]; [rewrite (NX6 Q); lia|].
    destruct X1 as (_ & X1 & _). destruct (X1 Q). lia. }
  assert (E1 : 0 <> e + 1) by lia.
  destruct ((c =? 0x2b) || (c =? 0x2d))%N.
  - destruct (range_eqb r (n_int n') && _) eqn:E2.
    { eexists. eexists. split; [reflexivity|]. apply andb_true_iff in E2. destruct (CI (proj1 E2)) as [Q1 Q2].
      apply K.
      - unfold num_ok. cbn. rewrite Q1, Q2. split; [exact RO|]. repeat split; intros; try contradiction. apply NX6, Q1.
      - unfold cur. cbn. rewrite Q1, Q2. reflexivity. }
    destruct (range_eqb r (n_exp n') && _) eqn:E3.
    { eexists. eexists. split; [reflexivity|]. apply K.
      - unfold num_ok. cbn. split; [exact NX1|]. split; [exact NX2|]. split; [intros _; exact RO|]. split; [exact NX4|]. split; [intros _; lia|exact NX6].
      - unfold cur. cbn. rewrite Nat.add_1_r. reflexivity. }
    exact EN.
  - destruct (c =? 0x2e)%N.
    + destruct (range_eqb r (n_int n')) eqn:E2; [|exact EN]. destruct (CI eq_refl) as [Q1 Q2].
      eexists. eexists. split; [reflexivity|]. apply K.
      * unfold num_ok. cbn. rewrite Q2. split; [exact NX1|]. split; [intros _; exact RO|]. split; [intros H; contradiction|]. split; [intros _; lia|]. split; [intros H; contradiction|intros H; congruence].
      * unfold cur. cbn. rewrite Q2, Nat.add_1_r. reflexivity.
    + destruct ((c =? 0x65) || (c =? 0x45))%N; [|exact EN].
      destruct (negb (range_eqb r (n_exp n'))) eqn:E2; [|exact EN]. eexists. eexists. split; [reflexivity|]. apply K.
      * unfold num_ok. cbn. split; [exact NX1|]. split; [exact NX2|]. split; [intros _; exact RO|]. split; [exact NX4|]. split; [intros _; lia|exact NX6].
      * unfold cur. cbn. rewrite Nat.add_1_r. reflexivity.
Qed.
Lemma again_ok buf d n map : done d = None -> state d = SNumberDone n -> inv buf d ->
  shows buf map (idx d) ->
  exists d' t, number_again n d map = Ok (d', t) /\ good buf d d' t.
Proof.
  intros D SD IV [L SH]. unfold inv in IV. rewrite SD in IV. destruct IV as (I1 & I2). unfold number_again.
  cbn [idx set_done]. rewrite part_ok by lia. cbn [bind].
  rewrite (raise_number_ok buf (slice map 0 (idx d)) n (idx d)).
  - cbn [bind]. eexists. eexists. split; [reflexivity|]. split; [unfold wf; cbn; lia|phis].
  - destruct SH as [more ->]. unfold slice. cbn [skipn]. rewrite Nat.sub_0_r. exists (skipn (idx d) map ++ more).
    rewrite app_assoc, firstn_skipn. reflexivity.
  - exact I2.
  - unfold slice. cbn [skipn]. rewrite firstn_length. lia.
Qed.
Lemma slice_length {A} (l : list A) i j : i <= j -> j <= length l -> length (slice l i j) = j - i.
Proof. intros. unfold slice. rewrite firstn_length, skipn_length. lia. Qed.
Lemma string_ok buf d s e map : done d = None -> state d = SString s -> inv buf d ->
  found char_p None buf (idx d) e map ->
  exists d' t, string_ s (set_idx d e) map = Ok (d', t) /\ good buf d d' t.
Proof.
  intros D SD IV F. here F. unfold inv in IV. rewrite SD in IV. destruct IV as (I1 & I2). unfold string_.
  cbn [idx set_idx]. rewrite (at_ok _ _ _ HC). cbn [bind].
  assert (W : forall b, 1 <= idx (string_raw (set_idx d e) b)) by (intros; unfold string_raw; destruct (0 <? _); cbn; lia).
  unfold char_p, string_stop in HP. apply negb_false_iff in HP.
  destruct (c =? 0x22)%N; [|destruct (c =? 0x5c)%N; [|destruct (c <? 0x1f)%N; [|discriminate]]].
  - rewrite part_ok by lia. cbn [bind]. unfold string_raw. cbn [acc_str set_idx].
    assert (RS : forall d', length (acc_str d') = 0 \/ 2 <= length (acc_str d') ->
      exists t, raise_string d' (slice map 0 (e + 1)) = Ok t).
    { intros d' L. unfold raise_string. destruct (0 <? length (acc_str d')) eqn:EL.
      - apply Nat.ltb_lt in EL. rewrite sub_ok by lia. cbn [bind]. rewrite part_ok by lia. cbn [bind]. eexists. reflexivity.
      - rewrite slice_length by lia. rewrite sub_ok by lia. cbn [bind]. rewrite part_ok by (rewrite ?slice_length; lia).
        cbn [bind]. eexists. reflexivity. }
    destruct (0 <? length (acc_str d)) eqn:EL; cbn [idx set_idx set_acc set_done];
      (rewrite part_ok by lia; cbn [bind]).
    + apply Nat.ltb_lt in EL. edestruct RS as [t ->]; [right; cbn; rewrite app_length, slice_length by lia; lia|].
      cbn [bind]. eexists. eexists. split; [reflexivity|]. split; [unfold wf; cbn; lia|phis].
    + apply Nat.ltb_ge in EL. edestruct RS as [t ->]; [left; cbn; lia|].
      cbn [bind]. eexists. eexists. split; [reflexivity|]. split; [unfold wf; cbn; lia|phis].
  - rewrite part_ok by lia. cbn [bind]. eexists. eexists. split; [reflexivity|].
    unfold string_raw. cbn [acc_str set_idx]. destruct (0 <? _);
      (split; [unfold wf, inv; cbn; rewrite D; lia|]);
      phis.
  - rewrite part_ok by lia. cbn [bind]. eexists. eexists. split; [reflexivity|]. 
    unfold string_raw. cbn [acc_str set_idx]. destruct (0 <? _); (split; [unfold wf, inv; cbn; rewrite D, SD; lia|phis]).
Qed.
Lemma escape_ok buf d map : done d = None -> state d = SEscape -> inv buf d ->
  shows buf map (idx d + 1) ->
  exists d' t, escape d map = Ok (d', t) /\ good buf d d' t.
Proof.
  intros D SD IV [L SH]. unfold inv in IV. rewrite SD in IV. unfold escape.
  assert (LB : length map <= length buf) by (destruct SH as [more ->]; rewrite app_length; lia).
  destruct (nth_error map (idx d)) as [c|] eqn:HC; [|apply nth_error_None in HC; lia].
  rewrite (at_ok _ _ _ HC). cbn [bind idx set_idx].
  destruct (_ || _)%bool; [|destruct (c =? 0x75)%N];
    try (rewrite sub_ok by lia; cbn [bind]; rewrite part_ok by lia; cbn [bind]);
    (eexists; eexists; split; [reflexivity|]);
    (split; [unfold wf, inv; cbn; rewrite D; repeat split; try lia; intros; lia|]).
  - phis.
  - phis.
  - phis.
Qed.

(** Hexadecimal digits. *)
Definition hex_value (c : N) : N := (if c <=? 0x39 then c - 0x30 else if c <=? 0x46 then c - 0x37 else c - 0x57)%N.
Lemma to_digit_ok c : is_hex c = true -> to_digit16 c = Ok (hex_value c) /\ (hex_value c < 16)%N.
Proof.
  unfold is_hex, to_digit16, hex_value. intros H.
  destruct ((0x30 <=? c) && (c <=? 0x39))%N eqn:E1; [rewrite (proj2 (N.leb_le c 0x39)) by lia; split; [reflexivity|lia]|].
  rewrite (proj2 (N.leb_gt c 0x39)) by lia.
  destruct ((0x61 <=? c) && (c <=? 0x66))%N eqn:E2; [rewrite (proj2 (N.leb_gt c 0x46)) by lia; split; [f_equal; lia|lia]|].
  replace ((0x41 <=? c) && (c <=? 0x46))%N with true by lia.
  rewrite (proj2 (N.leb_le c 0x46)) by lia. split; [f_equal; lia|lia].
Qed.
Lemma lor_digit x d : (d < 16)%N -> N.lor (N.shiftl x 4) d = (x * 16 + d)%N.
Proof.
  intros L. rewrite <- N.lxor_lor.
  - rewrite <- N.add_nocarry_lxor; [rewrite N.shiftl_mul_pow2; reflexivity|].
    apply N.bits_inj. intros k. rewrite N.land_spec, N.bits_0. destruct (N.lt_ge_cases k 4) as [K|K].
    + rewrite N.shiftl_spec_low by exact K. reflexivity.
    + rewrite (N.bits_above_log2 d), andb_false_r; [reflexivity|]. destruct d as [|d]; [cbn; lia|].
      apply N.log2_lt_pow2; [lia|]. eapply N.lt_le_trans; [exact L|]. change 16%N with (2 ^ 4)%N. apply N.pow_le_mono_r; lia.
  - apply N.bits_inj. intros k. rewrite N.land_spec, N.bits_0. destruct (N.lt_ge_cases k 4) as [K|K].
    + rewrite N.shiftl_spec_low by exact K. reflexivity.
    + rewrite (N.bits_above_log2 d), andb_false_r; [reflexivity|]. destruct d as [|d]; [cbn; lia|].
      apply N.log2_lt_pow2; [lia|]. eapply N.lt_le_trans; [exact L|]. change 16%N with (2 ^ 4)%N. apply N.pow_le_mono_r; lia.
Qed.
Definition hex_code (a b c d : N) : N :=
  (((hex_value a * 16 + hex_value b) * 16 + hex_value c) * 16 + hex_value d)%N.
Lemma from_hex_ok a b c d : is_hex a = true -> is_hex b = true -> is_hex c = true -> is_hex d = true ->
  unicode_from_hex a b c d = Ok (hex_code a b c d) /\ (hex_code a b c d < 65536)%N.
Proof.
  intros A B C D. unfold unicode_from_hex, hex_code.
  destruct (to_digit_ok _ A) as [-> LA]. destruct (to_digit_ok _ B) as [-> LB].
  destruct (to_digit_ok _ C) as [-> LC]. destruct (to_digit_ok _ D) as [-> LD]. cbn [bind].
  rewrite !lor_digit by assumption. split; [f_equal|]; lia.
Qed.
Lemma hex_ok p buf map s : shows buf map (s + 4) -> run p buf s (s + 4) ->
  (forall i c, s <= i -> p i c = true -> is_hex c = true) ->
  exists a b c d, nth_error map s = Some a /\ nth_error map (s + 1) = Some b /\
    nth_error map (s + 2) = Some c /\ nth_error map (s + 3) = Some d /\
    hex_at map s = Ok (hex_code a b c d) /\ (hex_code a b c d < 65536)%N.
Proof.
  intros [L SH] [_ R] P.
  assert (K : forall i, s <= i < s + 4 -> exists c, nth_error map i = Some c /\ is_hex c = true).
  { intros i Hi. destruct (R i Hi) as (c & C1 & C2). exists c. split; [|apply (P i); [lia|exact C2]].
    destruct SH as [more ->]. rewrite nth_error_app1 in C1 by lia. exact C1. }
  destruct (K s ltac:(lia)) as (a & A1 & A2). destruct (K (s + 1) ltac:(lia)) as (b & B1 & B2).
  destruct (K (s + 2) ltac:(lia)) as (c & C1 & C2). destruct (K (s + 3) ltac:(lia)) as (d & D1 & D2).
  exists a, b, c, d. split; [exact A1|]. split; [exact B1|]. split; [exact C1|]. split; [exact D1|].
  unfold hex_at. rewrite (at_ok _ _ _ A1), (at_ok _ _ _ B1), (at_ok _ _ _ C1), (at_ok _ _ _ D1). cbn [bind].
  apply from_hex_ok; assumption.
Qed.

(** Where a search with a limit ends. *)
Lemma found_limit p buf n e map m : found p (Some m) buf n e map ->
  run p buf n e /\ n <= e <= m /\ shows buf map e /\ (e = m \/ (e < m /\ exists c, nth_error buf e = Some c /\ p e c = false)).
Proof.
  intros ([R E] & SH & L & M). specialize (M m eq_refl). assert (X : n <= e) by (destruct R; assumption).
  split; [exact R|]. destruct E as [[E (c & C)]|[E1 E2]].
  - cbn in E. split; [lia|]. split; [|right; split; [exact E|exists c; exact C]]. split; [|exact SH].
    destruct L as [L|[L _]]; [lia|injection L as ->; lia].
  - injection E1 as ->. split; [lia|]. split; [|left; reflexivity]. split; [|exact SH]. destruct L as [L|[_ L]]; lia.
Qed.
Lemma char_ok c : (c < 65536)%N -> is_lead c = false -> is_trail c = false -> char_unwrap c = Ok c.
Proof. intros L A B. unfold is_lead in A. unfold is_trail in B. unfold char_unwrap. replace ((_ <? _) || _)%N with true; [reflexivity|lia]. Qed.
Lemma unicode_ok buf d s e map : done d = None -> state d = SUnicode s -> inv buf d ->
  found hex_p (Some (s + 4)) buf (idx d) e map ->
  exists d' t, unicode s (set_idx d e) map = Ok (d', t) /\ good buf d d' t.
Proof.
  intros D SD IV F. unfold inv in IV. rewrite SD in IV. destruct IV as (I1 & I2 & I3 & I4).
  destruct (found_limit _ _ _ _ _ _ F) as (R & L & SH & E). assert (R' := run_trans _ _ _ _ _ I4 R).
  assert (LB : e <= length buf) by (destruct SH as [X [more ->]]; rewrite app_length; lia).
  assert (LM : e <= length map) by (destruct SH; assumption).
  unfold unicode. cbn [idx set_idx]. destruct (e =? s + 4) eqn:EE; cbn [negb].
  - apply Nat.eqb_eq in EE. subst e.
    destruct (hex_ok hex_p buf map s SH R') as (a & b & c & k & _ & _ & _ & _ & -> & HL); [intros i c _ H; exact H|].
    cbn [bind]. set (code := hex_code a b c k) in *. clearbody code.
    destruct (is_lead code) eqn:EL.
    { eexists. eexists. split; [reflexivity|]. split.
      - unfold wf, inv. cbn. rewrite D. repeat split; try lia; try exact EL; intros; lia.
      - phis. }
    destruct (is_trail code) eqn:ET; rewrite sub_ok by lia; cbn [bind]; rewrite part_ok by lia; cbn [bind].
    + eexists. eexists. split; [reflexivity|]. split; [unfold wf, inv; cbn; rewrite D; lia|phis].
    + rewrite char_ok by assumption. cbn [bind]. eexists. eexists. split; [reflexivity|].
      split; [unfold wf, inv; cbn; rewrite D; lia|]. phis.
  - rewrite sub_ok by lia; cbn [bind]; rewrite part_ok by lia; cbn [bind]. eexists. eexists. split; [reflexivity|].
    split; [unfold wf, inv; cbn; rewrite D; lia|phis].
Qed.
Lemma trail_hex s i c : s + 2 <= i -> trail_char s i c = true -> is_hex c = true.
Proof.
  intros L. unfold trail_char. destruct (i - s) as [|[|k]] eqn:E; [lia|lia|]. intros H. apply andb_true_iff in H. apply H.
Qed.
Lemma trail_ok buf d s l e map : done d = None -> state d = STrail s l -> inv buf d ->
  found (trail_char s) (Some (s + 6)) buf (idx d) e map ->
  exists d' t, trail s l (set_idx d e) map = Ok (d', t) /\ good buf d d' t.
Proof.
  intros D SD IV F. unfold inv in IV. rewrite SD in IV. destruct IV as (I1 & I2 & I3 & I4 & I5).
  destruct (found_limit _ _ _ _ _ _ F) as (R & L & SH & E). assert (R' := run_trans _ _ _ _ _ I5 R).
  assert (LB : e <= length buf) by (destruct SH as [X [more ->]]; rewrite app_length; lia).
  assert (LM : e <= length map) by (destruct SH; assumption).
  unfold trail. cbn [idx set_idx]. destruct (e =? s + 6) eqn:EE; cbn [negb].
  - apply Nat.eqb_eq in EE. subst e.
    assert (SH' : shows buf map (s + 2 + 4)) by (replace (s + 2 + 4) with (s + 6) by lia; exact SH).
    assert (R2 : run (trail_char s) buf (s + 2) (s + 2 + 4)).
    { split; [lia|]. destruct R' as [_ R']. intros i Hi. apply R'. lia. }
    destruct (hex_ok _ buf map (s + 2) SH' R2) as (a & b & c & k & _ & _ & _ & _ & -> & HL); [intros i c; apply trail_hex|].
    cbn [bind]. set (code := hex_code a b c k) in *. clearbody code.
    destruct (is_lead code) eqn:EL; [|destruct (is_trail code) eqn:ET].
    + rewrite sub_ok by lia; cbn [bind]; rewrite part_ok by lia; cbn [bind].
      eexists. eexists. split; [reflexivity|]. split; [|phis].
      unfold wf, inv. cbn. rewrite D. repeat split; try lia; try exact EL; intros; lia.
    + unfold is_lead in I4. rewrite (proj2 (N.leb_le _ _)) by lia.
      rewrite sub_ok by lia; cbn [bind]; rewrite part_ok by lia; cbn [bind].
      unfold char_unwrap. rewrite N.shiftl_mul_pow2. change (2 ^ 10)%N with 1024%N. unfold is_trail in ET.
      replace ((_ <? _) || _)%N with true by lia. cbn [bind].
      eexists. eexists. split; [reflexivity|]. split; [unfold wf, inv; cbn; rewrite D; lia|].
      phis.
    + rewrite sub_ok by lia; cbn [bind]; rewrite part_ok by lia; cbn [bind].
      unfold string_char at 1. cbn [idx set_idx set_acc]. rewrite sub_ok by lia; cbn [bind]; rewrite part_ok by lia; cbn [bind].
      rewrite char_ok by assumption. cbn [bind].
      eexists. eexists. split; [reflexivity|]. split; [unfold wf, inv; cbn; rewrite D; lia|phis].
  - rewrite sub_ok by lia; cbn [bind]; rewrite part_ok by lia; cbn [bind]. eexists. eexists. split; [reflexivity|].
    split; [unfold wf, inv; cbn; rewrite D; lia|phis].
Qed.
