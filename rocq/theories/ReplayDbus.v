(** The tests of lib/tmp/src/fmt/dbus/signature.rs and
    lib/tmp/src/fmt/dbus/dvar.rs, run on the model. *)
From Coq Require Import Ascii String.
From Verif Require Import Base DbusElement DbusSigModel DbusObs DvarModel IoMapModel.
Local Open Scope N_scope.
Local Open Scope res_scope.

(** The text of a signature. *)
Definition text_of (s : list N) : res (list N) := do g <- make_sig s; sig_to_string g.

(** lib/tmp/src/fmt/dbus/signature.rs:1372-1377, [api]. *)
Example replay_api : text_of (bytes "a{sv}") = Ok (bytes "a{sv}").
Proof. vm_compute. reflexivity. Qed.
(** signature.rs:1381-1420, [sig_common]. *)
Example replay_sig_common : Forall (fun s => text_of s = Ok s)
  (map bytes ["y"; "q"; "n"; "u"; "i"; "t"; "x"; "d"; "b"; "s"; "o"; "g"; "h"; "v"; "ay"; "my"; "(yy)"; "{sv}"; "a{sv}"; "(uuta{sv}a{sv})"; "a(uu(t)(t))"; "({uu}{tt})"; "amamy"; "(ayata{yy}a(vv)v)"]%string).
Proof. cbn [map]. repeat (apply Forall_cons; [vm_compute; reflexivity|]). apply Forall_nil. Qed.
(** signature.rs:1424-1473, [sig_invalid]. *)
Example replay_sig_invalid : Forall (fun s => exists e, sig_new 0 s = Ok (inl e))
  [bytes ""; bytes "a"; bytes "m"; bytes "("; bytes "{"; bytes "aa"; bytes "(tt"; bytes "(tt(ay)"; bytes "tt"; bytes "ayay"; bytes "()()"; bytes "()()()()"; [0xff]; [0]; bytes "c"; bytes ")"; bytes "}"; bytes "a)"; bytes "a}"; bytes "(}"; bytes "{)"; bytes "{sv)"; bytes "(sv}"; bytes "{}"; bytes "{t}"; bytes "{ttt}"; bytes "{vv}"; bytes "{(t)t}"].
Proof. repeat (apply Forall_cons; [eexists; vm_compute; reflexivity|]). apply Forall_nil. Qed.

(** The signatures under the cursor after each move. *)
Fixpoint sigs (c : Cursor) (ms : list move) : res (list (option (list N))) :=
  do g <- c_sub c;
  do s <- match g with Some g => do s <- sig_to_string g; Ok (Some s) | None => Ok None end;
  match ms with [] => Ok [s] | m :: ms => do c <- do_move c m; do r <- sigs c ms; Ok (s :: r) end.
Definition sub_moves : list (move * option (list N)) := [(Down, Some (bytes "{sv}")); (Down, Some (bytes "s")); (Step, Some (bytes "v")); (Step, None); (Up, Some (bytes "{sv}")); (Up, Some (bytes "a{sv}")); (Step, None)].
(** signature.rs:1476-1496, [subslicing]. *)
Example replay_subslicing :
  (do g <- make_sig (bytes "a{sv}"); do c <- cursor g; sigs c (map fst sub_moves))
  = Ok (Some (bytes "a{sv}") :: map snd sub_moves).
Proof. vm_compute. reflexivity. Qed.

(** The elements under the cursor after each move. *)
Fixpoint elements (c : Cursor) (ms : list move) : res (list (option Element)) :=
  do e <- c_element c;
  match ms with [] => Ok [e] | m :: ms => do c <- do_move c m; do r <- elements c ms; Ok (e :: r) end.
Definition walks (s : list N) (first : Element) (ms : list (move * option Element)) : Prop :=
  (do g <- make_sig s; do c <- cursor g; elements c (map fst ms)) = Ok (Some first :: map snd ms).
(** signature.rs:1500-1567, [cursor_movement]. *)
Example replay_cursor_movement :
  walks (bytes "s") EString [(Next, None); (Next, None); (Prev, Some EString); (Prev, Some EString); (Next, None)]
  /\ walks (bytes "(tui)") EStructOpen
    [(Next, Some EU64); (Next, Some EU32); (Next, Some EI32); (Next, Some EStructClose); (Next, None); (Next, None); (Prev, Some EStructClose); (Prev, Some EI32); (Prev, Some EU32); (Prev, Some EU64); (Prev, Some EStructOpen); (Prev, Some EStructOpen)]
  /\ walks (bytes "a(a{sv}()()aay)") EArray
    [(Down, Some EStructOpen); (Down, Some EArray); (Down, Some EDictOpen); (Down, Some EString); (Down, Some EString); (Step, Some EVariant); (Step, Some EDictClose); (Up, Some EDictOpen); (Step, Some EDictOpen); (Up, Some EArray); (Step, Some EStructOpen); (Step, Some EStructOpen); (Step, Some EArray); (Down, Some EArray); (Down, Some EU8); (Up, Some EArray); (Up, Some EArray); (Step, Some EStructClose); (Up, Some EStructOpen); (Up, Some EArray); (Up, Some EArray); (Step, None)].
Proof. repeat (split; [vm_compute; reflexivity|]). vm_compute. reflexivity. Qed.

(** signature.rs:1571-1581, [traits]. *)
Example replay_traits : exists t0 t1,
  make_sig (bytes "(tt)") = Ok t0 /\ make_sig (bytes "(tv)") = Ok t1
  /\ sig_to_string t0 = Ok (bytes "(tt)")
  /\ sig_eq t0 t0 = Ok true /\ sig_cmp t0 t0 = Ok Eq /\ sig_cmp t0 t1 = Ok Lt.
Proof. do 2 eexists. repeat (split; [vm_compute; reflexivity|]). vm_compute. reflexivity. Qed.

(** What the calls leave in a vector. *)
Definition written (s : list N) (cs : list call) : res (dflow * list (option N)) :=
  do g <- make_sig s;
  do e <- enc_new g DVarLe (vec_of [] 0);
  do r <- enc_calls (vec_write (fun c => c)) e cs;
  Ok (fst r, vec_contents (e_out (snd r))).
(** lib/tmp/src/fmt/dbus/dvar.rs:748-820, [basic]. *)
Example replay_dvar :
  written (bytes "as") [CArray; CString (bytes "foo"); CString (bytes "bar"); CClose; CCommit]
  = Ok (Continue tt, map Some ([16; 0; 0; 0; 3; 0; 0; 0] ++ bytes "foo" ++ [0; 3; 0; 0; 0] ++ bytes "bar" ++ [0]))
  /\ written (bytes "a{sv}")
    [CArray; CDict; CString (bytes "foo"); CVariant (bytes "s"); CString (bytes "bar"); CClose; CClose; CClose; CCommit]
  = Ok (Continue tt, map Some ([20; 0; 0; 0; 0; 0; 0; 0; 3; 0; 0; 0] ++ bytes "foo" ++ [0; 1] ++ bytes "s" ++ [0; 0; 3; 0; 0; 0] ++ bytes "bar" ++ [0]))
  /\ written (bytes "as")
    [CEncWith (bytes "as"); CArray; CEnc; CString (bytes "000"); CCommit; CDrop; CEnc; CString (bytes "001"); CCommit; CDrop;
     CString (bytes "002"); CString (bytes "003"); CClose; CCommit; CDrop; CCommit]
  = Ok (Continue tt, map Some ([32; 0; 0; 0; 3; 0; 0; 0] ++ bytes "000" ++ [0; 3; 0; 0; 0] ++ bytes "001" ++ [0; 3; 0; 0; 0] ++ bytes "002" ++ [0; 3; 0; 0; 0] ++ bytes "003" ++ [0])).
Proof. repeat (split; [vm_compute; reflexivity|]). vm_compute. reflexivity. Qed.
