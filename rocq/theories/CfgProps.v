(** C87: conditional blocks. *)
From Coq Require Import String List Bool.
From Verif Require Import Base CfgSpec CfgModel.

Lemma internal_off {T} on l : forall acc, existsb (true_in on) acc = true ->
  compiled on (@internal T acc l) = [].
Proof.
  induction l as [|[c v] l IH]; intros acc A; [easy|].
  cbn [internal]. unfold compiled. cbn [filter fst map].
  assert (E : true_in on (All ((match c with Some c => [c] | None => [] end) ++ [Not (Any acc)])) = false).
  { cbn [true_in]. rewrite forallb_app. cbn [forallb true_in]. rewrite A.
    cbn. now rewrite Bool.andb_false_r. }
  rewrite E. apply (IH (acc ++ _)). rewrite existsb_app, A. easy.
Qed.

Lemma internal_first {T} on otherwise l : forall acc, existsb (true_in on) acc = false ->
  compiled on (@internal T acc (map (fun cv => (Some (fst cv), snd cv)) l
    ++ match otherwise with Some v => [(None, v)] | None => [] end))
  = match taken on l otherwise with Some v => v | None => [] end.
Proof.
  induction l as [|[c v] l IH]; intros acc A.
  - cbn [map app taken]. destruct otherwise as [v|]; [|easy].
    cbn. unfold compiled. cbn [filter fst]. cbn [true_in forallb]. rewrite A. cbn. apply app_nil_r.
  - cbn [map app fst snd internal taken]. unfold compiled. cbn [filter fst].
    cbn [true_in forallb app]. rewrite A. cbn [negb andb]. rewrite Bool.andb_true_r.
    destruct (true_in on c) eqn:C; cbn [map concat snd].
    + change (concat _) with (compiled on (internal (acc ++ [c])
        (map (fun cv => (Some (fst cv), snd cv)) l
           ++ match otherwise with Some v => [(None, v)] | None => [] end))).
      rewrite internal_off; [apply app_nil_r|]. rewrite existsb_app. cbn. rewrite C.
      now rewrite Bool.orb_true_r.
    + apply IH. rewrite existsb_app, A. cbn. now rewrite C.
Qed.

(** C87: for every configuration, exactly the block of the first condition that
    holds is compiled; if there is none the last block, if there is one. *)
Theorem cond_takes_first : forall (T : Type) on (l : list (meta * list T)) otherwise, l <> [] ->
  exists e, cond l otherwise = Some e
    /\ compiled on e = match taken on l otherwise with Some v => v | None => [] end.
Proof.
  intros T on l otherwise N. unfold cond. destruct l as [|cv l]; [easy|].
  eexists. split; [easy|]. now apply internal_first.
Qed.
Print Assumptions cond_takes_first.

(** Three conditions of which the last two hold. *)
Example cond_takes_first_case :
  let l := [(Not (Option 0), ["a"]); (Any [Option 1; Option 0], ["b"; "c"]); (Option 0, ["d"])]%string in
  option_map (compiled (fun n => n =? 0)) (cond l (Some ["e"]%string)) = Some ["b"; "c"]%string.
Proof. easy. Qed.
