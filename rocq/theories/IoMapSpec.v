(** Specification vocabulary for mapped I/O. *)
From Verif Require Import Base DbusSpec IoMapModel.
Local Open Scope N_scope.

(** The memory [m'] is [m] with the bytes [data] from index [idx] on. *)
Definition written (m : mem) (idx : N) (data : list N) (m' : mem) : Prop :=
  (forall k x, nth_error data k = Some x -> m' (idx + N.of_nat k) = Some x) /\
  (forall j, j < idx \/ idx + size data <= j -> m' j = m j).

(** A writer that serves every request up to index [limit]: in states
    satisfying [P], mapping a range below the limit returns some, possibly
    shorter or longer, but not an empty slice. *)
Definition serving {W} (I : Write W) (P : W -> Prop) (limit : N) : Prop :=
  forall w idx len, P w -> 0 < len -> idx + len <= limit ->
  exists k w', w_map I w idx len = Ok (Continue k, w') /\ 0 < k /\ P w'.
(** A writer that never maps more than it is asked for. *)
Definition bounded {W} (I : Write W) : Prop :=
  forall w idx len k w', w_map I w idx len = Ok (Continue k, w') -> k <= len.

(** A reader of the bytes [data]: in states satisfying [P], whatever slice is
    returned for an index holds the bytes from this index on. *)
Definition reading {R} (I : Read R) (P : R -> Prop) (data : list N) : Prop :=
  forall r idx len s r', P r -> r_map I r idx len = Ok (Continue s, r') ->
  s = slice data (N.to_nat idx) (N.to_nat idx + length s) /\ P r'.
(** It serves every request within the bytes with some slice. *)
Definition reading_all {R} (I : Read R) (P : R -> Prop) (data : list N) : Prop :=
  forall r idx len, P r -> 0 < len -> idx + len <= size data ->
  exists s r', r_map I r idx len = Ok (Continue s, r') /\ s <> [].
(** Implementations whose methods return. *)
Definition returning {W} (I : Write W) : Prop :=
  forall w idx len, w_map I w idx len <> NoFuel.
Definition returning_read {R} (I : Read R) : Prop :=
  forall r idx len, r_map I r idx len <> NoFuel.

(** A sequence of writes, each at an index. *)
Definition overlay (m : mem) (ws : list (N * list N)) : mem :=
  fold_left (fun m '(i, d) => fun j => if (i <=? j) && (j <? i + size d) then nth_error d (N.to_nat (j - i)) else m j) ws m.
(** Performing the writes on a vector and committing [n] bytes. *)
Fixpoint write_all {W} (I : Write W) (o : out W) (ws : list (N * list N)) : res (out W) :=
  match ws with
  | [] => Ok o
  | (i, d) :: ws =>
    bind (write I o i d) (fun '(r, o, _) => match r with Continue _ => write_all I o ws | Break _ => Panic end)
  end.
Definition write_commit (grow : N -> N) (o : out vec) (ws : list (N * list N)) (n : N) : res (out vec) :=
  bind (write_all (vec_write grow) o ws) (fun o =>
  bind (w_commit (vec_write grow) (o_w o) n) (fun v => Ok (mkOut v (o_mem o)))).
(** Some byte of [l], or uninitialised. *)
Definition firsts (n : N) (m : mem) : list (option N) := map (fun i => m (N.of_nat i)) (seq 0 (N.to_nat n)).
