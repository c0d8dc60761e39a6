(** Properties of layouts of program arguments for those who inspect them (C100). *)
From Verif Require Import Base ArgsSpec ArgsModel ArgsOrder ArgsLayout ArgsProofs ArgsProps LayoutSpec LayoutModel LayoutProofs.
From Coq Require Import Lia.
Local Open Scope res_scope.

(** All theorems are about any commands, in any order and also with equal
    paths or names unless said otherwise, and about any outcome of sorting them:
    [layout_sorted cmds cs] says that [cs] are the commands [cmds], sorted by path, with
    their flags sorted by name. *)

(** ** Everything is there *)

(** Creating a layout never panics.  Its iterators and indices give
    exactly its commands and flags, in order; indices beyond the end panic. *)
Theorem layout_inspect cmds cs : layout_sorted cmds cs ->
  exists s, link cs = Ok s /\ commands_len s = length cmds
    /\ yields command_next (commands_iter s) cs
    /\ (forall n, n <= length cs -> exists it, iter_from s n = Ok it /\ yields command_next it (skipn n cs))
    /\ (forall n, length cs < n -> iter_from s n = Panic)
    /\ (forall i, info_at s i = match nth_error cs i with Some c => Ok c | None => Panic end)
    /\ (forall c, yields flag_next (flags_iter c) (c_flags c))
    /\ (forall i j, schema_flag_at s (i, j) =
          match nth_error cs i with
          | Some c => match nth_error (c_flags c) j with Some f => Ok f | None => Panic end
          | None => Panic
          end).
Proof.
  intros L. pose proof (layout_paths _ _ L) as S. destruct (link_any cs) as (s & E & M & _); [exact (sorted_map _ _ _ S)|].
  assert (I : forall i, info_at s i = match nth_error cs i with Some c => Ok c | None => Panic end).
  { intros i. unfold info_at. rewrite <- M, nth_error_map. now destruct (nth_error s i). }
  assert (Le : length s = length cs) by (now rewrite <- M, map_length).
  exists s. split; [exact E|]. split.
  { unfold commands_len. rewrite Le. destruct L as (mid & F & (P & _)). rewrite <- (Permutation_length P). symmetry.
    clear - F. induction F; cbn; congruence. }
  split; [rewrite <- M; apply commands_yield|]. split.
  { intros n Hn. exists (skipn n s). split.
    - unfold iter_from. rewrite Le. apply Nat.leb_le in Hn. now rewrite Hn.
    - rewrite <- M, skipn_map. apply commands_yield. }
  split; [intros n Hn; unfold iter_from; rewrite Le; now apply Nat.leb_gt in Hn as ->|]. split; [exact I|].
  split; [intros c; apply flags_yield|].
  intros i j. unfold schema_flag_at. cbn [fst snd]. rewrite I. destruct (nth_error cs i) as [c|]; reflexivity.
Qed.
Print Assumptions layout_inspect.

(** ** Order and links *)

(** Commands are in depth-first pre-order, and [up_from] leads to the next layer
    up: to the closest command before whose path is a prefix. *)
Theorem layout_tree cmds cs s : layout_sorted cmds cs -> link cs = Ok s ->
  preorder (map c_path cs)
  /\ (forall i, i < length cs ->
        (forall j, up_from s i = Ok (Some j) <-> next_up (map c_path cs) i j)
        /\ (up_from s i = Ok None <-> forall j, ~ next_up (map c_path cs) i j))
  /\ (forall i, length cs <= i -> up_from s i = Panic).
Proof.
  intros L E. pose proof (layout_paths _ _ L) as S. assert (S' : ordered_paths (map c_path cs)) by exact (sorted_map _ _ _ S).
  destruct (link_any cs S') as (s' & E' & M & U).
  rewrite E in E'. injection E' as <-. split; [apply sorted_preorder; exact S'|].
  assert (Le : length s = length cs) by (now rewrite <- M, map_length).
  split.
  - intros i Hi. destruct (nth_error s i) as [d|] eqn:Hd; [|apply nth_error_None in Hd; lia].
    destruct (nth_error (map c_path cs) i) as [p|] eqn:Hp; [|apply nth_error_None in Hp; rewrite map_length in Hp; lia].
    destruct (up_ok_next _ _ _ _ Hp (U i d Hd)) as (A & B). unfold up_from. rewrite Hd. split.
    + intros j. rewrite <- A. split; congruence.
    + rewrite <- B. split; congruence.
  - intros i Hi. unfold up_from. rewrite <- Le in Hi. apply nth_error_None in Hi. now rewrite Hi.
Qed.
Print Assumptions layout_tree.

(** If no path is there twice: following [up_from] from a command visits exactly the
    commands above it, from the closest to the outermost, skipping those not
    defined. *)
Theorem layout_climb cmds cs s i c : layout_sorted cmds cs -> distinct cmds -> link cs = Ok s -> nth_error cs i = Some c ->
  exists l above, climbs (up_from s) i l /\ Forall2 (fun j d => nth_error cs j = Some d) l above
    /\ StronglySorted (fun x y => length (c_path y) < length (c_path x)) above
    /\ forall q, (exists d, In d above /\ c_path d = q) <-> is_command cmds q /\ prefix q (c_path c) /\ q <> c_path c.
Proof.
  intros L D E Hc. pose proof (layout_paths _ _ L) as S. assert (S' : ordered_paths (map c_path cs)) by exact (sorted_map _ _ _ S).
  destruct (link_any cs S') as (s' & E' & M & U). rewrite E in E'. injection E' as <-.
  destruct (climbs_all s (map c_path cs)) with (i := i) (p := c_path c) as (l & C & F & qs & F2 & St & X).
  - now rewrite M.
  - exact S'.
  - exact (layout_distinct _ _ L D).
  - exact U.
  - now rewrite nth_error_map, Hc.
  - assert (A : exists above, Forall2 (fun j d => nth_error cs j = Some d) l above /\ map c_path above = qs).
    { clear - F2. induction F2 as [|j q l qs H F IH]; [exists []; split; constructor|].
      rewrite nth_error_map in H. destruct (nth_error cs j) as [d|] eqn:N; [|discriminate]. injection H as <-.
      destruct IH as (ab & A & <-). exists (d :: ab). split; [now constructor|reflexivity]. }
    destruct A as (above & A & <-). exists l, above. split; [exact C|]. split; [exact A|]. split.
    + apply (sorted_keys (fun a b : path => length b < length a) c_path). exact St.
    + intros q. assert (Q : In q (map c_path cs) <-> is_command cmds q).
      { pose proof (layout_same _ _ L) as Sm. unfold is_command. rewrite in_map_iff. split.
        - intros (d & <- & Id). destruct (proj2 Sm d Id) as (d' & I' & E1 & _). eauto.
        - intros (d & Id & <-). destruct (proj1 Sm d Id) as (d' & I' & E1 & _). eauto. }
      rewrite <- Q, <- X, in_map_iff. split; intros (d & H1 & H2); eauto.
Qed.
Print Assumptions layout_climb.

(** ** Searching *)

(** Searching for a path, or a flag by its name, finds it exactly if it is there,
    and otherwise the position at which it would be in order; with any search that does what
    the documentation of the standard library says. *)
Theorem layout_search cmds cs s bs p n : layout_sorted cmds cs -> link cs = Ok s -> locates bs ->
  match commands_search bs s (fun c => path_cmp (c_path c) p) with
  | inl i => exists c, nth_error cs i = Some c /\ c_path c = p
  | inr i => ~ is_command cmds p /\ i <= length cs
      /\ forall j c, nth_error cs j = Some c -> path_cmp (c_path c) p = if j <? i then Lt else Gt
  end
  /\ forall c, In c cs ->
     match flags_search bs c (fun f => str_cmp (f_name f) n) with
     | inl j => exists f, nth_error (c_flags c) j = Some f /\ f_name f = n
     | inr j => (forall f, In f (c_flags c) -> f_name f <> n) /\ j <= length (c_flags c)
         /\ forall k f, nth_error (c_flags c) k = Some f -> str_cmp (f_name f) n = if k <? j then Lt else Gt
     end.
Proof.
  intros L E B. pose proof (layout_paths _ _ L) as S.
  destruct (link_any cs) as (s' & E' & M & _); [exact (sorted_map _ _ _ S)|]. rewrite E in E'. injection E' as <-. split.
  - unfold commands_search. replace (map (fun d => path_cmp (c_path (d_info d)) p) s) with (map (fun c => path_cmp (c_path c) p) cs)
      by (rewrite <- M, map_map; reflexivity).
    pose proof (search_ok path_cmp c_path cs p bs good_path B S) as H.
    destruct (bs (map (fun c => path_cmp (c_path c) p) cs)) as [i|i]; [exact H|]. destruct H as (N & Le & O).
    split; [|split; [exact Le|]].
    + intros (c & I & <-). destruct (proj1 (layout_same _ _ L) c I) as (c' & I' & E1 & _). exact (N c' I' E1).
    + intros j c Hj. specialize (O j c Hj). destruct (j <? i); exact O.
  - intros c Ic. unfold flags_search.
    pose proof (search_ok str_cmp f_name (c_flags c) n bs good_str B (layout_flags _ _ _ L Ic)) as H.
    destruct (bs (map (fun f => str_cmp (f_name f) n) (c_flags c))) as [i|i]; [exact H|]. destruct H as (N & Le & O).
    split; [exact N|]. split; [exact Le|]. intros k f Hk. specialize (O k f Hk). destruct (k <? i); exact O.
Qed.
Print Assumptions layout_search.

(** The search of the standard library does it. *)
Theorem layout_std_search : locates std_search.
Proof. exact std_search_locates. Qed.
Print Assumptions layout_std_search.

(** ** Mutable access *)

(** The edit replaces a flag by one of the same name, or a command by one with the
    same path and sorted flags. *)
Definition keeps (s : schema) (e : edit) : Prop :=
  match e with
  | PutCommand i c => forall d, nth_error s i = Some d ->
      c_path c = c_path (d_info d) /\ StronglySorted (fun x y => by_name x y <> Gt) (c_flags c)
  | PutFlag (i, j) f => forall d f', nth_error s i = Some d -> nth_error (c_flags (d_info d)) j = Some f' -> f_name f = f_name f'
  end.
Fixpoint all_keep (s : schema) (es : list edit) : Prop :=
  match es with
  | [] => True
  | e :: es => keeps s e /\ forall s', apply_edit s e = Ok s' -> all_keep s' es
  end.

(** "Those indices are guaranteed to be valid and stable for a given layout, even if
    mutable": after any edits that keep names, commands are where they were, and
    the layout is the compiled layout of its commands, so that all of the above holds of it. *)
Theorem layout_edit_partial cmds cs s es s' : layout_sorted cmds cs -> link cs = Ok s -> all_keep s es -> apply_edits s es = Ok s' ->
  exists cs', layout_sorted cs' cs' /\ link cs' = Ok s' /\ map c_path cs' = map c_path cs.
Proof.
  intros L E.
  assert (Inv : StronglySorted (fun x y => by_path x y <> Gt) (map d_info s)
    /\ (forall c, In c (map d_info s) -> StronglySorted (fun x y => by_name x y <> Gt) (c_flags c))
    /\ link (map d_info s) = Ok s /\ map c_path (map d_info s) = map c_path cs).
  { pose proof (proj1 (link_iff _ _) E) as (-> & _). split; [exact (layout_paths _ _ L)|].
    split; [intros c; exact (layout_flags _ _ _ L)|]. split; [exact E|reflexivity]. }
  clear L E. revert s Inv. induction es as [|e es IH]; intros s (S & F & K & P) A H; cbn [apply_edits] in H.
  - injection H as <-. exists (map d_info s). split; [|split; [exact K|exact P]].
    exists (map d_info s). split; [|split; [apply Permutation_refl|exact S]].
    clear - F. induction (map d_info s) as [|c l IH]; constructor.
    + split; [reflexivity|]. split; [apply Permutation_refl|]. apply F. now left.
    + apply IH. intros c' I. apply F. now right.
  - destruct A as (A1 & A2). destruct (apply_edit s e) as [s1| |] eqn:E; cbn [bind] in H; try discriminate.
    apply (IH s1); [|apply A2; reflexivity|exact H].
    assert (Step : exists i d c, nth_error s i = Some d /\ s1 = upd s i (mkDef c (d_up d)) /\ c_path c = c_path (d_info d)
      /\ StronglySorted (fun x y => by_name x y <> Gt) (c_flags c)).
    { destruct e as [i c|(i, j) f]; cbn [apply_edit keeps] in E, A1; destruct (nth_error s i) as [d|] eqn:N; try discriminate.
      - injection E as <-. destruct (A1 d eq_refl) as (A3 & A4). exists i, d, c. auto.
      - destruct (Nat.ltb_spec j (length (c_flags (d_info d)))) as [Lj|]; [|discriminate]. injection E as <-.
        destruct (nth_error (c_flags (d_info d)) j) as [f'|] eqn:Nf; [|apply nth_error_None in Nf; lia].
        specialize (A1 d f' eq_refl Nf). exists i, d. eexists. split; [exact N|]. split; [reflexivity|]. split; [reflexivity|]. cbn [c_flags].
        unfold by_name. apply (sorted_keys (fun a b => str_cmp a b <> Gt) f_name). rewrite map_upd, A1, upd_same by (now rewrite nth_error_map, Nf).
        apply (sorted_keys (fun a b => str_cmp a b <> Gt) f_name). apply F. apply in_map. eapply nth_error_In; eauto. }
    destruct Step as (i & d & c & N & -> & Pc & Fc).
    assert (PP : map c_path (map d_info (upd s i (mkDef c (d_up d)))) = map c_path (map d_info s)).
    { rewrite !map_upd. cbn [d_info]. apply upd_same. now rewrite !nth_error_map, N, Pc. }
    split.
    { unfold by_path. apply (sorted_keys (fun a b => path_cmp a b <> Gt) c_path). rewrite PP.
      apply (sorted_keys (fun a b => path_cmp a b <> Gt) c_path). exact S. }
    split.
    { intros c' I. apply in_map_iff in I as (d' & <- & I). apply in_upd in I as [->|I]; [exact Fc|]. apply F, in_map, I. }
    split; [|now rewrite PP]. apply link_iff. split; [reflexivity|]. rewrite PP, (proj2 (proj1 (link_iff _ _) K)).
    rewrite map_upd. cbn [d_up]. rewrite upd_same; [reflexivity|]. now rewrite nth_error_map, N.
Qed.
Print Assumptions layout_edit_partial.

(** But safe code can assign another name, which breaks the order that is said to be
    guaranteed: a flag that the layout has is then not found, and the parser reports that it is unknown. *)
Definition flag_a := mkFlag [97%N] MSet.
Definition flag_b := mkFlag [98%N] MSet.
Definition flag_c := mkFlag [99%N] MSet.
Definition std_bs : bsearch := fun l => match std_search l with inl i => Some i | inr _ => None end.
Definition note : handler (list event) unit := fun h e => (h ++ [e], None).
Theorem layout_edit_refuted :
  exists cmds cs s s', layout_sorted cmds cs /\ distinct cmds /\ distinct_flags cmds /\ link cs = Ok s
    /\ apply_edit s (PutFlag (0, 0) flag_c) = Ok s'
    /\ schema_flag_at s' (0, 0) = Ok flag_c
    /\ searches std_bs
    /\ exists n, parse std_bs s' note [] [[45; 45; 99]%N] = Ok ([EError (FlagUnknown (f_name flag_c)); EParameter 0 None], Selected n).
Proof.
  exists [mkCommand [] [flag_a; flag_b]]. do 3 eexists. split; [apply sort_layout_ok|].
  split; [repeat constructor; intros []|]. split.
  { intros c [<-|[]]. constructor; [intros [H|[]]; discriminate|]. constructor; [intros []|constructor]. }
  split; [reflexivity|]. split; [reflexivity|]. split; [reflexivity|]. split.
  { intros l O. unfold std_bs. pose proof (std_search_locates l O) as H. destruct (std_search l); [exact H|exact (proj1 H)]. }
  exists 0. vm_compute. reflexivity.
Qed.
Print Assumptions layout_edit_refuted.

(** Likewise a command: [up_from] leads to a command whose path is not a prefix. *)
Theorem layout_edit_link_refuted :
  exists cmds cs s s' c d, layout_sorted cmds cs /\ distinct cmds /\ link cs = Ok s
    /\ apply_edit s (PutCommand 0 (mkCommand [[122%N]] [])) = Ok s'
    /\ up_from s' 1 = Ok (Some 0) /\ info_at s' 1 = Ok c /\ info_at s' 0 = Ok d /\ ~ prefix (c_path d) (c_path c).
Proof.
  exists [mkCommand [[97%N]] []; mkCommand [[97%N]; [98%N]] []]. do 5 eexists. split; [apply sort_layout_ok|].
  split; [unfold distinct; cbn [map c_path]; repeat (apply NoDup_cons; [cbn; intuition discriminate|]); apply NoDup_nil|]. split; [reflexivity|]. split; [reflexivity|].
  split; [reflexivity|]. split; [reflexivity|]. split; [reflexivity|]. intros (r & H). discriminate.
Qed.
Print Assumptions layout_edit_link_refuted.

(** ** Examples *)

(** A command without its root, one below it, and two of equal path. *)
Definition some_cmds : list command :=
  [mkCommand [[98%N]; [99%N]; [100%N]] [flag_b; flag_a]; mkCommand [[98%N]] []; mkCommand [] [flag_a]; mkCommand [[98%N]] [flag_c]].
Example layout_case :
  exists cs s, layout_sorted some_cmds cs /\ link cs = Ok s /\ map c_path cs = [[]; [[98%N]]; [[98%N]]; [[98%N]; [99%N]; [100%N]]]
    /\ map d_up s = [None; Some 0; Some 1; Some 2]
    /\ commands_search std_search s (fun c => path_cmp (c_path c) [[98%N]; [97%N]]) = inr 3.
Proof.
  do 2 eexists. split; [apply sort_layout_ok|]. split; [vm_compute; reflexivity|]. split; [vm_compute; reflexivity|]. split; vm_compute; reflexivity.
Qed.
Example layout_climb_case :
  let cmds := [mkCommand [[98%N]; [99%N]; [100%N]] [flag_b; flag_a]; mkCommand [[98%N]] []; mkCommand [] [flag_a]] in
  exists cs s, layout_sorted cmds cs /\ distinct cmds /\ link cs = Ok s /\ climbs (up_from s) 2 [1; 0].
Proof.
  do 2 eexists. split; [apply sort_layout_ok|]. split; [unfold distinct; cbn [map c_path]; repeat (apply NoDup_cons; [cbn; intuition discriminate|]); apply NoDup_nil|].
  split; [vm_compute; reflexivity|]. apply climbs_up; [reflexivity|]. apply climbs_up; [reflexivity|]. now constructor.
Qed.
Example layout_edit_case :
  exists cs s s', layout_sorted some_cmds cs /\ link cs = Ok s
    /\ all_keep s [PutFlag (3, 0) (mkFlag [97%N] MParse); PutCommand 1 (mkCommand [[98%N]] [flag_c])]
    /\ apply_edits s [PutFlag (3, 0) (mkFlag [97%N] MParse); PutCommand 1 (mkCommand [[98%N]] [flag_c])] = Ok s'.
Proof.
  do 3 eexists. split; [apply sort_layout_ok|]. split; [vm_compute; reflexivity|]. split; [|vm_compute; reflexivity].
  split; [intros d f' [= <-] [= <-]; reflexivity|]. intros s1 [= <-]. split; [|intros; exact I].
  intros d [= <-]. split; [reflexivity|]. repeat constructor.
Qed.
