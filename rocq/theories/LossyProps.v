(** C115: lossy conversion of OS strings to text. *)
From Verif Require Import Base DvarDecSpec DvarDecode EtcModel LossyModel LossySpec LossyProofs.
Local Open Scope N_scope.

(** The conversion of the bytes [s] yields the text [t]. *)
Definition yields (s t : list N) : Prop :=
  to_string_lossy (from_encoded_bytes_unchecked s) = Ok (Borrowed t) \/
  to_string_lossy (from_encoded_bytes_unchecked s) = Ok (Owned t).

Lemma yields_iff s t : yields s t <-> converts s t.
Proof.
  unfold yields. destruct (lossy_ok s) as [c [E [C _]]]. change (from_encoded_bytes_unchecked s) with s. rewrite E. split.
  - intros [H|H]; injection H as ->; exact C.
  - intros H. rewrite (converts_unique _ _ H _ C). destruct c; cbn; [left|right]; reflexivity.
Qed.

(** C115: every sequence of bytes is converted, to the text the Unicode Standard
    recommends and no other. *)
Theorem lossy_exact : forall s t, yields s t <-> converts s t.
Proof. exact yields_iff. Qed.
Theorem lossy_total : forall s, exists t, yields s t /\ text t.
Proof.
  intros s. destruct (lossy_ok s) as [c [_ [C _]]]. exists (bytes_of c). split; [apply yields_iff, C|apply (converts_text _ _ C)].
Qed.
(** "a", the start of a euro sign, "b", a lone continuation, an overlong form,
    a surrogate, and a euro sign. *)
Example lossy_exact_met :
  yields [0x61; 0xe2; 0x82; 0x62; 0x80; 0xc0; 0xaf; 0xed; 0xa0; 0x80; 0xe2; 0x82; 0xac]
    ([0x61] ++ utf8 0xfffd ++ [0x62] ++ utf8 0xfffd ++ utf8 0xfffd ++ utf8 0xfffd ++
     utf8 0xfffd ++ utf8 0xfffd ++ utf8 0xfffd ++ utf8 0x20ac).
Proof. right. reflexivity. Qed.

(** C115: text is handed out as it is, without a copy, and only text is. *)
Theorem lossy_text : forall s,
  (text s <-> exists t, to_string_lossy s = Ok (Borrowed t)) /\
  (text s <-> to_string_lossy s = Ok (Borrowed s)) /\
  (text s <-> yields s s) /\
  (text s <-> to_str s = Some s).
Proof.
  intros s. destruct (lossy_ok s) as [c [E [C H]]]. rewrite E. split; [|split; [|split]].
  - split; [intros T; destruct c as [t|t]; [exists t; reflexivity|contradiction]|]. intros [t Ht]. injection Ht as ->. apply H.
  - split; [intros T; destruct c as [t|t]; [destruct H as [-> _]; reflexivity|contradiction]|]. intros Ht. injection Ht as ->. apply H.
  - rewrite yields_iff. split; [apply converts_same|apply converts_text].
  - unfold to_str, as_encoded_bytes. rewrite <- utf8_exact. destruct (DvarModel.utf8_valid s); split; congruence.
Qed.
Example lossy_text_met :
  text [0x61; 0xe2; 0x82; 0xac] /\ ~ text [0x61; 0xe2; 0x82] /\
  to_string_lossy [0x61; 0xe2; 0x82] = Ok (Owned ([0x61] ++ utf8 0xfffd)).
Proof.
  split; [exists [0x61; 0x20ac]; split; [repeat constructor|reflexivity]|]. split; [|reflexivity].
  rewrite <- utf8_exact. discriminate.
Qed.

(** C115: converting the result again changes nothing. *)
Theorem lossy_again : forall s t, yields s t -> to_string_lossy t = Ok (Borrowed t).
Proof. intros s t H. apply (lossy_text t). apply yields_iff in H. apply (converts_text _ _ H). Qed.
Example lossy_again_met : yields [0xff; 0x61] (utf8 0xfffd ++ [0x61]).
Proof. right. reflexivity. Qed.

(** C115: damage stays where it is: the parts before and after a byte that does
    not continue a character are converted on their own; so are those before
    and after the end of text. *)
Theorem lossy_local : forall s t u v,
  yields s t -> yields u v ->
  text s \/ (match u with [] => True | a :: _ => a < 128 \/ 192 <= a end) ->
  yields (s ++ u) (t ++ v).
Proof.
  intros s t u v Hs Hu F. rewrite yields_iff in *. destruct F as [T|F].
  - rewrite (converts_unique _ _ Hs _ (converts_same s T)). apply converts_app; assumption.
  - apply converts_split; [assumption| |assumption]. intros a w ->. lia.
Qed.
Example lossy_local_met :
  (yields [0xe2; 0x82] (utf8 0xfffd) /\ yields [0xe2; 0x82; 0xac] (utf8 0x20ac)) /\
  (~ yields ([0xe2; 0x82] ++ [0xac]) (utf8 0xfffd ++ utf8 0xfffd)).
Proof. split; [split; [right; reflexivity|left; reflexivity]|]. intros [H|H]; discriminate H. Qed.

(** C115: the result is no shorter, and at most three times as long. *)
Theorem lossy_length : forall s t, yields s t -> (length s <= length t <= 3 * length s)%nat.
Proof. intros s t H. apply yields_iff in H. apply converts_length, H. Qed.
Example lossy_length_met :
  yields [0xff; 0xff] (utf8 0xfffd ++ utf8 0xfffd) /\ yields [0xf0; 0x90; 0x80] (utf8 0xfffd).
Proof. split; right; reflexivity. Qed.

Print Assumptions lossy_exact.
Print Assumptions lossy_total.
Print Assumptions lossy_text.
Print Assumptions lossy_again.
Print Assumptions lossy_local.
Print Assumptions lossy_length.
