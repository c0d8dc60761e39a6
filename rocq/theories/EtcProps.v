(** Properties of uncaught errors, of writing through the bridge, of OS strings
    and of alignment markers (C81 to C83). *)
From Coq Require Import String.
From Coq Require Import List.
From Verif Require Import Base LayModel FfiProofs EtcSpec EtcModel.
From Verif Require DvarModel DvarDecSpec DvarDecode.
Local Open Scope string_scope.

(* ------------------------------------------------------------------ *)
(** ** C81: uncaught errors expose what was promised *)

(** Two values are alike in what is exposed. *)
Definition alike {W} (x : exposure) (v v' : value W) : Prop :=
  match x with
  | Nothing => True
  | OnlyDebug => forall w, debug v w = debug v' w
  | OnlyDisplay => forall w, display v w = display v' w
  | Everything => (forall w, debug v w = debug v' w) /\ (forall w, display v w = display v' w) /\ cause v = cause v'
  end.

Lemma then_ext {W} (f g f' g' : formatting W) w : (forall w, f w = f' w) -> (forall w, g w = g' w) -> then_ f g w = then_ f' g' w.
Proof. intros F G. unfold then_. rewrite F. destruct (f' w) as [u [|]]; auto. Qed.

(** Whatever is done with an uncaught error - formatting it either way on any
    formatter, which may fail, or asking for its source - tells nothing
    about the value but what was promised to be exposed. *)
Theorem uncaught_exposes_nothing_else {W} (put : W -> string -> W * bool) std k v v' w :
  alike (promised k) v v' ->
  debug_fmt put std (uncaught_of k v) w = debug_fmt put std (uncaught_of k v') w
  /\ display_fmt put (uncaught_of k v) w = display_fmt put (uncaught_of k v') w
  /\ source (uncaught_of k v) = source (uncaught_of k v').
Proof.
  destruct k; cbn; intros A; try destruct A as (A1 & A2 & A3);
    (split; [|split; [|reflexivity || assumption]]); try reflexivity; try destruct std;
    repeat (apply then_ext; [auto|intros]); auto.
Qed.
Print Assumptions uncaught_exposes_nothing_else.

Example uncaught_exposes_nothing_else_case :
  let v s : value string := {| debug := fun w => (w ++ s, true); display := fun w => (w ++ "x", true); cause := None |} in
  alike (promised BoxAny) (v "secret") (v "other") /\ alike (promised BoxDisplay) (v "secret") (v "other")
  /\ display_fmt (fun w s => (w ++ s, true)) (uncaught_of BoxDisplay (v "secret")) "" = ("Uncaught(Display): x", true).
Proof. split; [exact I|]. split; [intros w; reflexivity|reflexivity]. Qed.

(** And that is shown: on a formatter that takes everything the texts are those of
    the specification, and the source of an error is its source. *)
Lemma string_app_nil (s : string) : s ++ "" = s.
Proof. induction s; cbn; congruence. Qed.
Lemma string_app_assoc (a b c : string) : a ++ b ++ c = (a ++ b) ++ c.
Proof. induction a; cbn; congruence. Qed.

Theorem uncaught_texts std k (v : value string) d s w :
  (forall w, debug v w = (w ++ d, true)) -> (forall w, display v w = (w ++ s, true)) ->
  let put := fun w p => (w ++ p, true) in
  debug_fmt put std (uncaught_of k v) w = (w ++ debug_text std k d s, true)
  /\ display_fmt put (uncaught_of k v) w = (w ++ display_text k d s, true)
  /\ source (uncaught_of k v) = match promised k with Everything => cause v | _ => None end.
Proof.
  intros D S put. unfold put.
  destruct k, std; (split; [|split; [|reflexivity]]); cbn [uncaught_of debug_fmt display_fmt]; unfold then_, lit;
    rewrite ?D, ?S; f_equal; rewrite <- ?string_app_assoc; reflexivity.
Qed.
Print Assumptions uncaught_texts.

Example uncaught_texts_case :
  debug_text true BoxError "Custom" "foobar" = "Uncaught::Error(Custom)" /\ debug_text false BoxError "" "foobar" = "Uncaught::Error(foobar)"
  /\ display_text FoldStaticDebug "0" "" = "Uncaught(StaticDebug): 0" /\ display_text BoxAny "0" "0" = "Uncaught(Any)".
Proof. repeat split. Qed.

(** If the formatter fails, formatting fails, and nothing is written after that:
    a formatter that records what it was offered sees one refusal at most, as the last. *)
Definition recorder (room : nat) (w : list string) (p : string) : list string * bool :=
  ((w ++ [p])%list, Nat.leb (S (List.length w)) room).
Theorem uncaught_stops std k (v : value (list string)) room d s :
  (forall w, debug v w = recorder room w d) -> (forall w, display v w = recorder room w s) ->
  let put := recorder room in
  forall shown ok, (debug_fmt put std (uncaught_of k v) [] = (shown, ok) \/ display_fmt put (uncaught_of k v) [] = (shown, ok)) ->
  if ok then List.length shown <= room else List.length shown = S room.
Proof.
  intros D S put shown ok H.
  assert (G : forall f, (f = debug_fmt put std (uncaught_of k v) [] \/ f = display_fmt put (uncaught_of k v) []) ->
    if snd f then List.length (fst f) <= room else List.length (fst f) = Datatypes.S room).
  { intros f [-> | ->]; destruct k; try destruct std; cbn [uncaught_of debug_fmt display_fmt]; unfold then_, lit, put, recorder;
      cbn [List.length app Nat.leb];
      repeat (rewrite ?D, ?S; unfold recorder; cbn [List.length app Nat.leb fst snd];
              destruct room as [|room]; cbn [List.length app Nat.leb fst snd]; try lia). }
  destruct H as [H|H]; [specialize (G _ (or_introl eq_refl))|specialize (G _ (or_intror eq_refl))]; rewrite H in G; exact G.
Qed.
Print Assumptions uncaught_stops.

Example uncaught_stops_case :
  debug_fmt (recorder 1) true (uncaught_of BoxDebug {| debug := fun w => recorder 1 w "0"; display := fun w => (w, true); cause := None |}) []
    = (["Uncaught::Debug("; "0"], false).
Proof. reflexivity. Qed.

(* ------------------------------------------------------------------ *)
(** ** C82: writing text to a device *)

Lemma firstn_plus {A} a : forall b (l : list A), (firstn a l ++ firstn b (skipn a l))%list = firstn (a + b) l.
Proof.
  induction a as [|a IH]; intros b l; [reflexivity|]. destruct l as [|x l]; [now rewrite skipn_nil, !firstn_nil|].
  cbn. now rewrite IH.
Qed.

Section Device.
Context {D : Type} (write : D -> list N -> D * outcome) (received : D -> list N) (patience : D -> nat).
Hypothesis B : behaves write received patience.

Lemma write_all_received fuel : forall d s d' ok, write_all write fuel d s = Ok (d', ok) ->
  exists n, received d' = (received d ++ firstn n s)%list /\ (if ok then firstn n s = s else n < List.length s).
Proof.
  induction fuel as [|fuel IH]; intros d s d' ok H.
  - destruct s; [|discriminate]. injection H as <- <-. exists 0. rewrite app_nil_r. auto.
  - destruct s as [|b s]; [injection H as <- <-; exists 0; rewrite app_nil_r; auto|].
    cbn [write_all] in H. destruct (write d (b :: s)) as [d1 [n| |]] eqn:W.
    + destruct (b_wrote _ _ _ B _ _ _ _ W) as (L & R & _). destruct n as [|n].
      * injection H as <- <-. exists 0. cbn [firstn] in *. split; [exact R|]. cbn. lia.
      * apply IH in H as (m & R' & E). exists (S n + m). rewrite R', R, <- app_assoc. split.
        -- f_equal. apply firstn_plus.
        -- destruct ok.
           ++ apply firstn_all2. assert (Q : List.length (firstn m (skipn (S n) (b :: s))) = List.length (skipn (S n) (b :: s))) by now rewrite E.
              rewrite firstn_length, skipn_length in Q. cbn [List.length] in *. lia.
           ++ rewrite skipn_length in E. lia.
    + destruct (b_interrupted _ _ _ B _ _ _ W) as (R & _). apply IH in H as (m & R' & E). exists m. now rewrite R', R.
    + destruct (b_failed _ _ _ B _ _ _ W) as (R & _). injection H as <- <-. exists 0. rewrite R. cbn [firstn]. rewrite app_nil_r.
      split; [reflexivity|]. cbn. lia.
Qed.

Lemma write_all_patience fuel : forall d s, List.length s + patience d < fuel ->
  exists d' ok, write_all write fuel d s = Ok (d', ok) /\ patience d' <= patience d.
Proof.
  induction fuel as [|fuel IH]; intros d s H; [lia|]. destruct s as [|b s]; [cbn; eauto|].
  cbn [write_all]. destruct (write d (b :: s)) as [d1 [n| |]] eqn:W.
  - destruct (b_wrote _ _ _ B _ _ _ _ W) as (L & _ & P). destruct n as [|n]; [eauto|].
    destruct (IH d1 (skipn (S n) (b :: s))) as (d2 & ok & E & Q); [rewrite skipn_length; cbn [List.length] in *; lia|].
    exists d2, ok. split; [exact E|lia].
  - destruct (b_interrupted _ _ _ B _ _ _ W) as (_ & P). destruct (IH d1 (b :: s)) as (d2 & ok & E & Q); [cbn [List.length] in *; lia|].
    exists d2, ok. split; [exact E|lia].
  - destruct (b_failed _ _ _ B _ _ _ W) as (_ & P). eauto.
Qed.
End Device.

(** The text of formatted arguments, up to where an argument fails on its own. *)
Fixpoint text_of (args : list piece) : list N :=
  match args with Text s :: args => (s ++ text_of args)%list | _ => [] end.

(** Writing a string, or formatted arguments, through the bridge to any device
    that writes part of what it is offered, interrupts or fails: with success
    the device has received exactly the text; with an error a proper part of it from
    the beginning.  It ends if the device does not interrupt for ever, and panics only
    if the formatting of an argument fails on its own. *)
Theorem bridge_delivers {D} (write : D -> list N -> D * outcome) received patience fuel d args :
  behaves write received patience ->
  (forall s d' ok, write_str write fuel d s = Ok (d', ok) ->
    if ok then received d' = (received d ++ s)%list
    else exists n, n < List.length s /\ received d' = (received d ++ firstn n s)%list)
  /\ (forall d' ok, write_fmt write fuel d args = Ok (d', ok) ->
    if ok then received d' = (received d ++ text_of args)%list
    else exists n, n < List.length (text_of args) /\ received d' = (received d ++ firstn n (text_of args))%list)
  /\ (write_fmt write fuel d args = Panic -> In Broken args)
  /\ (List.length (text_of args) + patience d < fuel -> write_fmt write fuel d args <> NoFuel)
  /\ (forall s, List.length s + patience d < fuel -> exists d' ok, write_str write fuel d s = Ok (d', ok)).
Proof.
  intros B. split; [|split; [|split; [|split]]].
  - intros s d' ok H. destruct (write_all_received _ _ _ B _ _ _ _ _ H) as (n & R & E). destruct ok; [now rewrite R, E|eauto].
  - revert d. induction args as [|[s|] args IH]; intros d d' ok H; cbn in H; try discriminate.
    + injection H as <- <-. cbn. now rewrite app_nil_r.
    + destruct (write_all write fuel d s) as [[d1 [|]]| |] eqn:W; try discriminate;
        destruct (write_all_received _ _ _ B _ _ _ _ _ W) as (n & R & E).
      * specialize (IH _ _ _ H). cbn [text_of]. rewrite R, E in IH. destruct ok; [now rewrite IH, app_assoc|].
        destruct IH as (m & L & Q). exists (List.length s + m). rewrite app_length, Q. split; [lia|].
        rewrite firstn_app, <- app_assoc. rewrite (firstn_all2 s) by lia. do 3 f_equal. lia.
      * injection H as <- <-. exists n. cbn [text_of]. rewrite app_length. split; [lia|].
        rewrite firstn_app, R. replace (n - List.length s) with 0 by lia. now rewrite firstn_O, app_nil_r.
  - revert d. induction args as [|[s|] args IH]; intros d H; cbn in H; try discriminate; [|now left].
    destruct (write_all write fuel d s) as [[d1 [|]]| |] eqn:W; try discriminate; [right; eauto|].
    exfalso. clear IH. revert d s W. induction fuel as [|f IH]; intros d s W; destruct s; try discriminate.
    cbn [write_all] in W. destruct (write d (n :: s)) as [? [[|?]| |]]; try discriminate; eauto.
  - revert d. induction args as [|[s|] args IH]; intros d L H; cbn in H; try discriminate.
    cbn [text_of] in L. rewrite app_length in L.
    destruct (write_all_patience _ _ _ B fuel d s ltac:(lia)) as (d1 & ok & W & P). rewrite W in H.
    destruct ok; [|discriminate]. apply (IH d1); [lia|exact H].
  - intros s L. destruct (write_all_patience _ _ _ B fuel d s L) as (d' & ok & W & _). eauto.
Qed.
Print Assumptions bridge_delivers.

(** A device that writes two bytes at a time, interrupts before every third
    byte pair as long as it is patient, and has room for seven bytes. *)
Definition slow (d : list N * nat) (buf : list N) : (list N * nat) * outcome :=
  let (got, p) := d in
  match p with
  | S p => ((got, p), Interrupted)
  | 0 => let n := Nat.min (Nat.min 2 (List.length buf)) (7 - List.length got) in ((got ++ firstn n buf, 0)%list, Wrote n)
  end.
Example bridge_delivers_case :
  behaves slow fst snd /\ write_str slow 20 ([], 3) [1; 2; 3; 4; 5]%N = Ok (([1; 2; 3; 4; 5]%N, 0), true)
  /\ write_fmt slow 20 ([], 1) [Text [1; 2; 3]; Text []; Text [4; 5; 6; 7; 8]]%N = Ok (([1; 2; 3; 4; 5; 6; 7]%N, 0), false).
Proof.
  split; [|split; reflexivity]. constructor; intros [got p] buf [got' p']; unfold slow; destruct p as [|p]; try discriminate; cbn [fst snd].
  - intros n. generalize (Nat.le_min_r 2 (List.length buf)). generalize (Nat.min 2 (List.length buf)). intros q Q.
    generalize (Nat.le_min_l q (7 - List.length got)). generalize (Nat.min q (7 - List.length got)). intros r R H.
    injection H as <- <- <-. split; [lia|]. split; [reflexivity|lia].
  - intros [= <- <-]. split; [reflexivity|lia].
Qed.

(** An OS string is its encoded bytes; it is text exactly if they are UTF-8. *)
Theorem osstr_is_its_bytes (v : list N) :
  as_encoded_bytes (from_encoded_bytes_unchecked v) = v /\ as_osstr (from_osstr v) = v
  /\ (forall o, from_utf8 v = Some o <-> DvarDecSpec.text v /\ as_encoded_bytes o = v)
  /\ (forall s, to_str (from_encoded_bytes_unchecked v) = Some s <-> DvarDecSpec.text v /\ s = v)
  /\ (DvarDecSpec.text v -> to_str (from_str v) = Some v).
Proof.
  assert (E := DvarDecode.utf8_exact v).
  unfold to_str, from_utf8, from_str, from_encoded_bytes_unchecked, as_encoded_bytes.
  split; [reflexivity|]. split; [reflexivity|]. destruct (DvarModel.utf8_valid v).
  - assert (T : DvarDecSpec.text v) by (now apply E). split; [|split].
    + intros o. split; [intros [= <-]; auto|intros (_ & ->); auto].
    + intros s. split; [intros [= <-]; auto|intros (_ & ->); auto].
    + reflexivity.
  - assert (T : ~ DvarDecSpec.text v) by (intros T; apply E in T; discriminate). split; [|split].
    + intros o. split; [discriminate|intros (T' & _); contradiction].
    + intros s. split; [discriminate|intros (T' & _); contradiction].
    + intros T'. contradiction.
Qed.
Print Assumptions osstr_is_its_bytes.

Example osstr_is_its_bytes_case :
  to_str [0x66; 0xc3; 0xa9]%N = Some [0x66; 0xc3; 0xa9]%N /\ to_str [0x66; 0xc3]%N = None /\ from_utf8 [0xff]%N = None.
Proof. repeat split. Qed.

(* ------------------------------------------------------------------ *)
(** ** C83: alignment markers *)

Lemma align_n_layout n m : align_n n = Some m -> size_of m = 0 /\ align_of m = n.
Proof.
  intros H. do 129 (destruct n as [|n]; [try discriminate H; injection H as <-; split; reflexivity|]). discriminate H.
Qed.

Lemma align_n_supported n : (exists m, align_n n = Some m) <-> supported n.
Proof.
  split.
  - intros (m & H). do 129 (destruct n as [|n]; [discriminate H ||
      (match goal with |- supported ?k => let e := eval cbv in (Nat.log2 k) in exists e; split; [lia|reflexivity] end)|]). discriminate H.
  - intros (k & L & ->). do 8 (destruct k as [|k]; [eexists; reflexivity|]). lia.
Qed.

Lemma align_as_layout n m : align_as n = Some m -> size_of m = 0 /\ align_of m = n.
Proof. unfold align_as. destruct (align_n n) as [x|] eqn:E; [|discriminate]. intros [= <-]. exact (align_n_layout _ _ E). Qed.

Lemma compiles_address h : compiles h = true -> number_align h Integer (address h) = address_align h.
Proof.
  unfold compiles. destruct (align_native h); [|discriminate]. intros H. apply andb_prop in H as (_ & H). now apply Nat.eqb_eq.
Qed.

(** The marker for a type takes no space and has exactly the alignment of the
    type, on every host on which the library compiles. *)
Theorem marker_has_alignment h t m : compiles h = true -> align_of_type h t = Some m ->
  exists l, layout h t = Some l /\ size_of m = 0 /\ align_of m = align_of l.
Proof.
  intros C. unfold align_of_type. destruct (align_type h t) as [x|] eqn:E; [|discriminate]. intros [= <-].
  change (size_of (Transparent x)) with (size_of x). change (align_of (Transparent x)) with (align_of x).
  apply compiles_address in C. revert x E. induction t as [c n| | | |n t IH|t IH| | |n]; intros x E; cbn [align_type layout] in *.
  - apply align_as_layout in E. eauto.
  - apply align_as_layout in E. eauto.
  - apply align_as_layout in E. eauto.
  - apply align_as_layout in E. eauto.
  - destruct (IH _ E) as (l & -> & H). cbn. eauto.
  - destruct (IH _ E) as (l & -> & H). cbn. eauto.
  - destruct (align_as _) as [y|] eqn:F; [|discriminate]. injection E as <-. apply align_as_layout in F. rewrite C in F. eauto.
  - destruct (align_as _) as [y|] eqn:F; [|discriminate]. injection E as <-. apply align_as_layout in F. rewrite C in F. eauto.
  - unfold align_as. rewrite E. cbn. eexists. split; [reflexivity|]. destruct (align_n_layout _ _ E). split; auto.
Qed.
Print Assumptions marker_has_alignment.

Lemma some_map {A B} (f : A -> B) o : (exists m, option_map f o = Some m) <-> (exists m, o = Some m).
Proof. destruct o; cbn; split; intros (m & H); try discriminate; eauto. Qed.

(** There is one for every type with an alignment of 1, 2, 4, ..., 128 bytes. *)
Theorem marker_exists h t : compiles h = true ->
  ((exists m, align_of_type h t = Some m) <-> (exists l, layout h t = Some l /\ supported (align_of l))).
Proof.
  intros C. apply compiles_address in C. unfold align_of_type.
  assert (A : forall n, (exists m, align_as n = Some m) <-> supported n).
  { intros n. rewrite <- align_n_supported. unfold align_as. now rewrite some_map. }
  assert (G : (exists m, align_type h t = Some m) <-> (exists l, layout h t = Some l /\ supported (align_of l))).
  { assert (P : forall s a, (exists l, Some (Prim s a) = Some l /\ supported (align_of l)) <-> supported a).
    { intros s a. split; [intros (l & [= <-] & S); exact S|eauto]. }
    induction t as [c n| | | |n t IH|t IH| | |n]; cbn [align_type layout].
    - now rewrite P, A.
    - now rewrite P, A.
    - now rewrite P, A.
    - rewrite A. split; [intros S; eexists; split; [reflexivity|exact S]|intros (l & [= <-] & S); exact S].
    - rewrite IH. destruct (layout h t) as [l|]; cbn; [|split; intros (y & [=] & _)].
      split; intros (y & [= <-] & S); eexists; (split; [reflexivity|exact S]).
    - rewrite IH. destruct (layout h t) as [l|]; cbn; [|split; intros (y & [=] & _)].
      split; intros (y & [= <-] & S); eexists; (split; [reflexivity|exact S]).
    - now rewrite P, <- C, <- A, some_map.
    - now rewrite P, <- C, <- A, some_map.
    - unfold align_as. destruct (align_n n) as [m|] eqn:E; cbn; [|split; [intros (y & [=])|intros (y & [=] & _)]]. split; [|eauto]. intros _.
      eexists. split; [reflexivity|]. destruct (align_n_layout _ _ E) as (_ & E'). cbn. rewrite E'. apply align_n_supported. eauto. }
  now rewrite <- G, some_map.
Qed.
Print Assumptions marker_exists.

(** A marker in front of or behind the fields of a structure raises its alignment
    to at least that of the type, as far as needed and no further, and moves no other field. *)
Theorem marker_embedded h t m min fs : compiles h = true -> align_of_type h t = Some m ->
  exists l, layout h t = Some l
    /\ align_of (Struct false min (m :: fs)) = Nat.max (align_of l) (align_of (Struct false min fs))
    /\ align_of (Struct false min (fs ++ [m])) = Nat.max (align_of l) (align_of (Struct false min fs))
    /\ offsets_of (Struct false min (m :: fs)) = 0 :: offsets_of (Struct false min fs)
    /\ firstn (List.length fs) (offsets_of (Struct false min (fs ++ [m]))) = offsets_of (Struct false min fs).
Proof.
  intros C H. destruct (marker_has_alignment _ _ _ C H) as (l & L & S & A). exists l. split; [exact L|]. rewrite <- A.
  assert (P : 0 < align_of m).
  { assert (X : exists l, layout h t = Some l /\ supported (align_of l)) by (apply (proj1 (marker_exists h t C)); eauto).
    destruct X as (l' & L' & k & _ & E). rewrite L in L'. injection L' as <-. rewrite A, E. clear. induction k; cbn; lia. }
  split; [reflexivity|]. split; [|split].
  - cbn [align_of]. rewrite map_app, fold_right_app. cbn [map fold_right].
    generalize (Nat.max 1 min) as z. intros z. generalize (map (fun f => align_of f) fs) as xs. generalize (align_of m) as a. intros a xs.
    induction xs as [|x xs IH]; cbn [fold_right]; [reflexivity|]. rewrite IH. lia.
  - cbn [offsets_of offsets]. rewrite round_up_0 by auto. rewrite S. reflexivity.
  - cbn [offsets_of]. generalize 0 as o. induction fs as [|f fs IH]; intros o; [reflexivity|]. cbn. f_equal. apply IH.
Qed.
Print Assumptions marker_embedded.

(** A 32-bit host that aligns 64-bit numbers to 4 bytes. *)
Definition i386 : host := {| number_align := fun _ n => Nat.min 4 n; address := 4; address_align := 4 |}.
Example markers_case :
  compiles i386 = true /\ option_map align_of (align_of_type i386 (ArrayOf 3 (Number Integer 8))) = Some 4
  /\ option_map align_of (align_of_type i386 (SliceOf Reference)) = Some 4
  /\ option_map align_of (align_of_type i386 (As 128)) = Some 128 /\ align_of_type i386 (As 3) = None
  /\ option_map align_of align_any = Some 1 /\ option_map align_of (align_native i386) = Some 4.
Proof. repeat split. Qed.
