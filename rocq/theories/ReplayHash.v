(** The tests of lib/osi/src/hash/sha256.rs, lib/osi/src/hmac.rs and
    lib/osi/src/str.rs, run on the model. *)
From Coq Require Import Ascii String.
From Verif Require Import Base Sha256Model HmacModel StrModel.
Local Open Scope N_scope.
Local Open Scope res_scope.

(** A text as bytes. *)
Definition T (s : string) : list N := map N_of_ascii (list_ascii_of_string s).

(** lib/osi/src/hash/sha256.rs:289-303, [reference_vectors]. *)
Example replay_sha256_vectors :
  (do h <- hash_once []; to_hex h) = Ok (T "e3b0c44298fc1c149afbf4c8996fb92427ae41e4649b934ca495991b7852b855")
  /\ (do h <- hash_once (T "foobar"); to_hex h) = Ok (T "c3ab8ff13720e8ad9047dd39466b3c8974e592c2fa383d4a3960714caef0c4f2").
Proof. split; vm_compute; reflexivity. Qed.

(** lib/osi/src/hash/sha256.rs:318-332, [split]. *)
Example replay_sha256_split :
  (do e <- push engine_default (T "f"); do e <- push e (T "o"); do e <- push e (T "o"); do e <- push e (T "b");
   do e <- push e (T "a"); do e <- push e (T "r"); do r <- finalize e; to_hex (fst r))
  = Ok (T "c3ab8ff13720e8ad9047dd39466b3c8974e592c2fa383d4a3960714caef0c4f2").
Proof. vm_compute. reflexivity. Qed.

(** lib/osi/src/hash/sha256.rs:336-360, [zeroes]: one engine, used again after
    each digest. *)
Definition zero_cases : list (nat * list N) :=
  [(54%nat, T "ea659cdc838619b3767c057fdf8e6d99fde2680c5d8517eb06761c0878d40c40");
   (55%nat, T "02779466cdec163811d078815c633f21901413081449002f24aa3e80f0b88ef7");
   (56%nat, T "d4817aa5497628e7c77e6b606107042bbba3130888c5f47a375e6179be789fbb");
   (57%nat, T "65a16cb7861335d5ace3c60718b5052e44660726da4cd13bb745381b235a1785");
   (58%nat, T "66b4a8b2a17f0463f7427c0239106eaf710ea7129f42d184a58c50cdff614ba4");
   (64%nat, T "f5a5fd42d16a20302798ef6ed309979b43003d2320d9f0e8ea9831a92759fb4b");
   (128%nat, T "38723a2e5e8a17aa7950dc008209944e898f69a7bd10a23c839d341e935fd5ca");
   (256%nat, T "5341e6b2646979a70e57653007a1f310169421ec9bdd9f1a5648f75ade005af1");
   (512%nat, T "076a27c79e5ace2a3d47f9dd2e83e4ff6ea8872b3c2218f66c92b89b55f36560");
   (1024%nat, T "5f70bf18a086007016e948b04aed3b82103a36bea41755b6cddfaf10ace3c6ef")].
Fixpoint zeroes (e : Sha256Model.engine) (ns : list nat) : res (list (list N)) :=
  match ns with
  | [] => Ok []
  | n :: ns => do e <- push_zero e n; do r <- finalize e; do h <- to_hex (fst r); do hs <- zeroes (snd r) ns; Ok (h :: hs)
  end.
Example replay_sha256_zeroes : zeroes engine_default (map fst zero_cases) = Ok (map snd zero_cases).
Proof. vm_compute. reflexivity. Qed.

(** lib/osi/src/hmac.rs:135-144, [basic]. *)
Example replay_hmac :
  (do h <- hmac_sha256_new (T "key");
   do h <- hmac_push sha256_engine h (T "The quick brown fox jumps over the lazy dog");
   do r <- hmac_finalize sha256_engine h; to_hex (fst r))
  = Ok (T "f7bc83f430538424b13298e6aa6fb143ef4d59a14946175997479dbc2d1a3cd8").
Proof. vm_compute. reflexivity. Qed.

(* ------------------------------------------------------------------ *)
(** ** Strings *)

(** The characters of the tests are ASCII. *)
Definition num (c : N) : bool := (0x30 <=? c) && (c <=? 0x39).
Definition alpha (c : N) : bool := (0x61 <=? N.lor c 0x20) && (N.lor c 0x20 <=? 0x7a).

(** lib/osi/src/str.rs:126-130, [some_basic]. *)
Example replay_some : some (T "") = None /\ some (T " ") = Some (T " ") /\ some (T "foobar") = Some (T "foobar").
Proof. repeat split. Qed.

(** lib/osi/src/str.rs:137-158, [cmp_natural_basic]. *)
Example replay_cmp_natural :
  cmp_natural num (T "foobar") (T "foobar") = Ok Eq
  /\ cmp_natural num (T "foobar0") (T "foobar1") = Ok Lt
  /\ cmp_natural num (T "foobar1") (T "foobar0") = Ok Gt
  /\ cmp_natural num (T "foobar2") (T "foobar10") = Ok Lt
  /\ cmp_natural num (T "foo2bar3") (T "foo10bar10") = Ok Lt.
Proof. repeat split. Qed.

(** lib/osi/src/str.rs:163-170, [symbolize_basic]. *)
Example replay_symbolize :
  map (symbolize num alpha) [T ""; T "foobar"; T "0foobar"; T "foo-bar"; T "0foo-bar"; T "foo(bar)"]
  = [T "_"; T "foobar"; T "_0foobar"; T "foo_bar"; T "_0foo_bar"; T "foo_bar_"].
Proof. reflexivity. Qed.
