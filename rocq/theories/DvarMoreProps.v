(** Property C131: decoding a message of which a part is missing. *)
From Verif Require Import Base DbusSpec DbusSigModel IoMapModel IoMapSpec IoMapProps DvarModel DvarSpec DvarDecSpec DvarEncode DvarDecode DvarProofs DvarDecProps.
Local Open Scope N_scope.
Local Open Scope res_scope.

(** The same decoder, of the same message with more data at its end. *)
Definition longer (d : Dec (list N)) (rest : list N) : Dec (list N) :=
  mkDec (d_format d) (d_top d) (d_up d) (d_read d ++ rest).
(** What a call says if the message ends too early. *)
Definition too_short : dflow := Break (Some (Io Exceeded)).

(** A call, and the same call if there is more data. *)
Definition extends (rest : list N) (x y : dstep (list N)) (d : Dec (list N)) : Prop :=
  x = Ok (too_short, DUnit, d) \/
  match x with Ok (f, v, d') => f <> too_short /\ y = Ok (f, v, longer d' rest) | Panic => y = Panic | NoFuel => y = NoFuel end.

Lemma slice_part (msg rest : list N) idx n : (N.to_nat idx + N.to_nat n <= length msg)%nat ->
  firstn (N.to_nat n) (skipn (N.to_nat idx) (msg ++ rest)) = firstn (N.to_nat n) (skipn (N.to_nat idx) msg).
Proof.
  intros L. rewrite skipn_app, firstn_app, skipn_length.
  replace (N.to_nat n - (length msg - N.to_nat idx))%nat with 0%nat by lia. rewrite firstn_O, app_nil_r. reflexivity.
Qed.
Lemma read_longer (msg rest : list N) idx n : (exists i got, read slice_read msg idx n = Ok (Break (Some Exceeded), msg, i, got)) \/
  match read slice_read msg idx n with
  | Ok (f, r, i, got) => r = msg /\ f <> Break (Some Exceeded) /\ read slice_read (msg ++ rest) idx n = Ok (f, msg ++ rest, i, got)
  | Panic => read slice_read (msg ++ rest) idx n = Panic | NoFuel => read slice_read (msg ++ rest) idx n = NoFuel end.
Proof.
  unfold read. cbn [read_loop]. destruct (0 <? n) eqn:P.
  - assert (M : forall data, r_map slice_read data idx n = match checked_add idx n with
      | None => Ok (Break (Some Overflow), data)
      | Some e => if size data <? e then Ok (Break (Some Exceeded), data)
        else Ok (Continue (firstn (N.to_nat n) (skipn (N.to_nat idx) data)), data) end) by reflexivity.
    rewrite !M. clear M. destruct (checked_add idx n) as [e|] eqn:A.
    + unfold checked_add in A. destruct (idx + n <? usize) eqn:U; [|discriminate]. injection A as <-.
      destruct (size msg <? idx + n) eqn:S1.
      * left. cbn [bind]. exists idx, []. reflexivity.
      * right. assert (S2 : (size (msg ++ rest) <? idx + n) = false).
        { apply N.ltb_ge in S1. apply N.ltb_ge. unfold size in *. rewrite app_length. lia. }
        rewrite S2. cbn [bind]. apply N.ltb_ge in S1. apply N.ltb_lt in P. unfold size in S1.
        rewrite slice_part by lia. set (part := firstn (N.to_nat n) (skipn (N.to_nat idx) msg)).
        assert (SP : size part = n) by (unfold part, size; rewrite firstn_length, skipn_length; lia). clearbody part. rewrite SP.
        rewrite (proj2 (N.ltb_lt 0 n)) by lia. rewrite N.min_id, N.sub_diag. destruct (add_usize idx n) as [j| |]; cbn [bind]; try reflexivity.
        destruct (N.to_nat n) as [|k] eqn:K; [lia|]. cbn [read_loop]. change (0 <? 0) with false. cbn [bind].
        split; [reflexivity|]. split; [discriminate|reflexivity].
    + right. cbn [bind]. split; [reflexivity|]. split; [discriminate|reflexivity].
  - right. split; [reflexivity|]. split; [discriminate|reflexivity].
Qed.

Lemma ext_ok rest d f v d' : f <> too_short -> extends rest (Ok (f, v, d')) (Ok (f, v, longer d' rest)) d.
Proof. intros NE. right. split; [exact NE|reflexivity]. Qed.
Lemma ext_fail rest d e d' : e <> Io Exceeded -> extends rest (dfail e d') (dfail e (longer d' rest)) d.
Proof. intros NE. apply ext_ok. unfold too_short. congruence. Qed.
Lemma ext_bind {A} rest (x : res A) k k' d : (forall a, extends rest (k a) (k' a) d) -> extends rest (bind x k) (bind x k') d.
Proof. intros H. destruct x as [a| |]; cbn [bind]; [apply H|right; reflexivity|right; reflexivity]. Qed.
Lemma ext_read rest idx n d k k' :
  (forall i got, extends rest (k (d_read d) i got) (k' (d_read d ++ rest) i got) d) ->
  extends rest (seq_read (read slice_read (d_read d) idx n) d k) (seq_read (read slice_read (d_read d ++ rest) idx n) (longer d rest) k') d.
Proof.
  intros H. unfold seq_read. destruct (read_longer (d_read d) rest idx n) as [(i & got & E)|E].
  - rewrite E. left. cbn [bind]. unfold from_io, dput_read. destruct d; reflexivity.
  - destruct (read slice_read (d_read d) idx n) as [[[[g r] i] got]| |]; [destruct E as (-> & NG & E)| |]; rewrite E; cbn [bind]; [|right; reflexivity|right; reflexivity].
    destruct g as [x|u]; [|apply H]. right. split; [|reflexivity].
    unfold from_io, too_short. intros C. apply NG. destruct x as [[]|]; cbn in C; congruence.
Qed.
Lemma ext_align rest idx x d e k k' : (forall i, extends rest (k i) (k' i) d) ->
  extends rest (dec_align idx x e k) (dec_align idx x (longer e rest) k') d.
Proof.
  intros H. unfold dec_align. apply ext_bind. intros m. destruct (checked_next_multiple_of idx m) as [v|]; [apply H|].
  apply ext_fail. discriminate.
Qed.
Lemma ext_call rest d c : extends rest (dec_call slice_read d c) (dec_call slice_read (longer d rest) c) d.
Proof.
  assert (FX : forall el n k, extends rest (dec_fixed slice_read d el n k) (dec_fixed slice_read (longer d rest) el n k) d).
  { intros el n k. unfold dec_fixed. apply ext_bind. intros ok. destruct (negb ok); [apply ext_fail; discriminate|].
    apply ext_align. intros i. apply (ext_read rest i n d). intros j got. apply ext_bind. intros c'.
    apply (ext_ok rest d (Continue tt)). discriminate. }
  assert (ST : forall el len_el n de, extends rest (dec_str slice_read d el len_el n de) (dec_str slice_read (longer d rest) el len_el n de) d).
  { intros el len_el n de. unfold dec_str. apply ext_bind. intros ok. destruct (negb ok); [apply ext_fail; discriminate|].
    apply ext_align. intros i. apply (ext_read rest i n d). intros j got.
    apply (ext_read rest j (de (d_format d) got) d). intros j' got'.
    destruct (negb (utf8_valid got')); [apply (ext_fail rest d DataNonUtf8); discriminate|]. apply ext_bind. intros j2. apply ext_bind. intros c'.
    apply (ext_ok rest d (Continue tt)). discriminate. }
  assert (DD : extends rest (dec_dec d) (dec_dec (longer d rest)) d).
  { unfold dec_dec. apply ext_bind. intros up. apply ext_bind. intros [v|]; [|apply ext_fail; discriminate].
    apply ext_bind. intros f'. apply (ext_ok rest d (Continue tt)). discriminate. }
  destruct c as [ | | | | | | |t| | ]; cbn [dec_call].
  - apply FX.
  - apply ST.
  - apply ST.
  - unfold dec_array. apply ext_bind. intros ok. destruct (negb ok); [apply ext_fail; discriminate|]. apply ext_bind. intros down.
    apply ext_align. intros i. apply (ext_read rest i 4 d). intros j got.
    apply (ext_align rest j _ d (dput_read d (d_read d))). intros i'. apply ext_bind. intros c'.
    apply (ext_ok rest d (Continue tt)). discriminate.
  - unfold dec_close. apply ext_bind. intros [st|]; [apply ext_fail; discriminate|]. change (d_top (longer d rest)) with (d_top d).
    destruct (f_stk (d_top d)) as [|[[[] ?] ?] ?]; try (apply ext_fail; discriminate); try (right; reflexivity);
      (apply ext_bind; intros f'; apply (ext_ok rest d (Continue tt)); discriminate).
  - apply (ext_ok rest d (Continue tt)). discriminate.
  - exact DD.
  - apply ext_bind. intros s. unfold dec_dec_with. apply ext_bind. intros sub. apply ext_bind. intros [|]; [exact DD|apply ext_fail; discriminate].
  - unfold dec_commit. apply ext_bind. intros st. change (d_top (longer d rest)) with (d_top d). change (d_up (longer d rest)) with (d_up d).
    destruct st as [st|]; [apply ext_fail; discriminate|]. destruct (f_stk (d_top d)); [|apply ext_fail; discriminate].
    destruct (f_link (d_top d)).
    + destruct (d_up d); [right; reflexivity|]. apply (ext_ok rest d (Continue tt)). discriminate.
    + apply (ext_ok rest d (Continue tt)). discriminate.
  - unfold dec_drop. change (d_up (longer d rest)) with (d_up d). destruct (d_up d); apply (ext_ok rest d (Continue tt)); discriminate.
Qed.

(** For all decoders in all states, all calls, and whatever is missing: a call says
    that the message is too short, and then the decoder is as before the call, or
    it does the same, panics included, as if the missing data were there. *)
Theorem dvar_incomplete : forall rest d c,
  dec_call slice_read d c = Ok (too_short, DUnit, d) \/
  match dec_call slice_read d c with
  | Ok (f, x, d') => f <> too_short /\ dec_call slice_read (longer d rest) c = Ok (f, x, longer d' rest)
  | Panic => dec_call slice_read (longer d rest) c = Panic
  | NoFuel => dec_call slice_read (longer d rest) c = NoFuel
  end.
Proof. exact ext_call. Qed.
(** Calls one after another, up to the first error.  If there was not enough data,
    then the calls can be continued with the one that failed, once there is more,
    and it makes no difference that they were tried before. *)
Theorem dvar_resume : forall rest cs d,
  (exists done todo xs d', cs = done ++ todo /\ todo <> [] /\ length xs = length done /\
    dec_calls slice_read d cs = Ok (too_short, xs, d') /\ dec_calls slice_read d done = Ok (Continue tt, xs, d') /\
    dec_calls slice_read (longer d rest) cs =
      do '(f, ys, e) <- dec_calls slice_read (longer d' rest) todo; Ok (f, xs ++ ys, e)) \/
  match dec_calls slice_read d cs with
  | Ok (f, xs, d') => f <> too_short /\ dec_calls slice_read (longer d rest) cs = Ok (f, xs, longer d' rest)
  | Panic => dec_calls slice_read (longer d rest) cs = Panic
  | NoFuel => dec_calls slice_read (longer d rest) cs = NoFuel
  end.
Proof.
  intros rest cs. induction cs as [|c cs IH]; intros d.
  - right. split; [discriminate|reflexivity].
  - cbn [dec_calls]. destruct (dvar_incomplete rest d c) as [E|E].
    + left. exists [], (c :: cs), [], d. split; [reflexivity|]. split; [discriminate|]. split; [reflexivity|].
      rewrite E. split; [reflexivity|]. split; [reflexivity|]. cbn [dec_calls].
      destruct (dec_call slice_read (longer d rest) c) as [[[[f|f] x] e]| |]; cbn [bind]; try reflexivity.
      destruct (dec_calls slice_read e cs) as [[[f' ys] e']| |]; reflexivity.
    + destruct (dec_call slice_read d c) as [[[f x] d']| |] eqn:D; [destruct E as [NE E]| |]; rewrite E; cbn [bind]; [|right; reflexivity|right; reflexivity].
      destruct f as [u|u]; [right; split; [exact NE|reflexivity]|].
      destruct (IH d') as [(done & todo & xs & d2 & -> & NT & L & E1 & E2 & E3)|E1].
      * left. exists (c :: done), todo, (x :: xs), d2. split; [reflexivity|]. split; [exact NT|]. split; [cbn; rewrite L; reflexivity|].
        rewrite E1. split; [reflexivity|]. cbn [dec_calls]. rewrite D. cbn [bind]. rewrite E2. split; [reflexivity|].
        rewrite E3. destruct (dec_calls slice_read (longer d2 rest) todo) as [[[f' ys] e']| |]; reflexivity.
      * right. destruct (dec_calls slice_read d' cs) as [[[f' xs] d2]| |]; [destruct E1 as [NE1 E1]| |]; rewrite E1; cbn [bind]; [|reflexivity|reflexivity].
        split; [exact NE1|reflexivity].
Qed.
(** The wire format of a value of which a part is missing at the end: the calls for
    the value yield what they yield for all of it, up to where they say that the
    message is too short, or to the end.  Nothing else is an error. *)
Theorem dvar_truncated : forall fuel fmt sg t v cs ds part rest,
  sig_new fuel (print t) = Ok (inr sg) -> decodes t v cs ds -> marshal (big_endian fmt) t v 0 = Some (part ++ rest) ->
  size (part ++ rest) < usize ->
  exists d f xs d' ys, dec_new sg fmt part = Ok d /\ dec_calls slice_read d (cs ++ [DCCommit]) = Ok (f, xs, d') /\
    ds ++ [DUnit] = xs ++ ys /\ (f = too_short \/ f = Continue tt /\ ys = []).
Proof.
  intros fuel fmt sg t v cs ds part rest S DC M L. destruct (map_slice_reading _ L) as [R1 R2].
  destruct (dvar_decodes_partial _ slice_read _ fuel fmt sg t v cs ds (part ++ rest) (part ++ rest) (part ++ rest) R1 R2 L eq_refl S DC M
    (ex_intro _ [] (eq_sym (app_nil_r _)))) as (e & e' & N1 & E & _ & _).
  unfold dec_new in *. destruct (frame_for sg 0 None) as [fr| |]; cbn [bind] in *; try discriminate. injection N1 as <-.
  exists (mkDec fmt fr [] part). change (mkDec fmt fr [] (part ++ rest)) with (longer (mkDec fmt fr [] part) rest) in E.
  destruct (dvar_resume rest (cs ++ [DCCommit]) (mkDec fmt fr [] part)) as [(done & todo & xs & d' & _ & _ & _ & E1 & _ & E2)|E1].
  - rewrite E in E2. destruct (dec_calls slice_read (longer d' rest) todo) as [[[f ys] e2]| |]; try discriminate. cbn [bind] in E2. injection E2 as _ E2 _.
    exists too_short, xs, d', ys. split; [reflexivity|]. split; [exact E1|]. split; [exact E2|left; reflexivity].
  - destruct (dec_calls slice_read (mkDec fmt fr [] part) (cs ++ [DCCommit])) as [[[f xs] d']| |]; [|congruence|congruence].
    destruct E1 as [_ E1]. rewrite E in E1. injection E1 as <- <- _. exists (Continue tt), (ds ++ [DUnit]), d', [].
    split; [reflexivity|]. split; [reflexivity|]. split; [rewrite app_nil_r; reflexivity|right; split; reflexivity].
Qed.
(** Beside: the array of arrays of strings of C24, cut within its second string. *)
Example dvar_truncated_case : exists sg part rest d d', sig_new 0 (print rt_type) = Ok (inr sg) /\
  decodes rt_type rt_value rt_calls rt_data /\ marshal (big_endian DVarBe) rt_type rt_value 0 = Some (part ++ rest) /\
  length part = 17%nat /\ length rest = 11%nat /\ size (part ++ rest) < usize /\
  dec_new sg DVarBe part = Ok d /\
  dec_calls slice_read d (rt_calls ++ [DCCommit]) = Ok (too_short, [DUnit; DUnit; DText [195; 164]], d').
Proof.
  eexists. exists [0; 0; 0; 24;  0; 0; 0; 13;  0; 0; 0; 2;  195; 164; 0; 0;  0], [0; 0; 0;  0; 0; 0; 0;  0; 0; 0; 0]. do 2 eexists.
  split; [vm_compute; reflexivity|]. split; [exact rt_decodes|]. split; [vm_compute; reflexivity|]. split; [reflexivity|]. split; [reflexivity|].
  split; [vm_compute; reflexivity|]. split; [vm_compute; reflexivity|]. vm_compute. reflexivity.
Qed.

Print Assumptions dvar_incomplete.
Print Assumptions dvar_resume.
Print Assumptions dvar_truncated.
