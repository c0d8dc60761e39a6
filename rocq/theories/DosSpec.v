(** MS-DOS and the processor it runs on, as far as a small program needs them:
    memory and registers of the 8086, a few of its instructions, two services of
    MS-DOS and the loader of MZ programs, which is documented at
    lib/tmp/src/msdosmz.rs:1-110 and 179-335.  Does not use the model. *)
From Coq Require Import String List NArith Bool.
From Verif Require Import Base FmtSpec.
Local Open Scope N_scope.
Local Open Scope list_scope.

(** ** Memory *)

(** One megabyte of bytes, addressed by segment and offset: segments start every
    16 bytes, offsets have 16 bits. *)
Definition memory := N -> N.
Definition linear (seg off : N) : N := (16 * seg + off mod 2 ^ 16) mod 2 ^ 20.
Definition byte_at (m : memory) (seg off : N) : N := m (linear seg off).
Definition word_at (m : memory) (seg off : N) : N := byte_at m seg off + 256 * byte_at m seg (off + 1).
Definition put (m : memory) (a v : N) : memory := fun x => if x =? a then v else m x.

(** ** Registers *)

Inductive reg := AX | CX | DX | BX | SP | BP | SI | DI.
Inductive segment := ES | CS | SS | DS.
Record cpu := mkCpu { general : reg -> N; seg : segment -> N; ip : N }.
Definition reg_eq (a b : reg) : {a = b} + {a <> b}. decide equality. Defined.
Definition segment_eq (a b : segment) : {a = b} + {a <> b}. decide equality. Defined.
Definition set_reg (c : cpu) (r : reg) (v : N) : cpu :=
  mkCpu (fun x => if reg_eq x r then v mod 2 ^ 16 else general c x) (seg c) (ip c).
Definition set_seg (c : cpu) (s : segment) (v : N) : cpu :=
  mkCpu (general c) (fun x => if segment_eq x s then v mod 2 ^ 16 else seg c x) (ip c).
Definition forward (c : cpu) (n : N) : cpu := mkCpu (general c) (seg c) ((ip c + n) mod 2 ^ 16).
Definition high (v : N) : N := v / 256.
Definition low (v : N) : N := v mod 256.

(** ** Instructions *)

Inductive instruction :=
| Push (s : segment)
| Pop (s : segment)
| Mov (r : reg) (v : N)
| MovLow (r : reg) (v : N)
| MovHigh (r : reg) (v : N)
| Interrupt (n : N).

(** The encoding, with the number of bytes. *)
Definition decode (b0 b1 b2 : N) : option (instruction * N) :=
  match b0 with
  | 0x06 => Some (Push ES, 1) | 0x0e => Some (Push CS, 1) | 0x16 => Some (Push SS, 1) | 0x1e => Some (Push DS, 1)
  | 0x07 => Some (Pop ES, 1) | 0x17 => Some (Pop SS, 1) | 0x1f => Some (Pop DS, 1)
  | 0xb0 => Some (MovLow AX b1, 2) | 0xb1 => Some (MovLow CX b1, 2)
  | 0xb2 => Some (MovLow DX b1, 2) | 0xb3 => Some (MovLow BX b1, 2)
  | 0xb4 => Some (MovHigh AX b1, 2) | 0xb5 => Some (MovHigh CX b1, 2)
  | 0xb6 => Some (MovHigh DX b1, 2) | 0xb7 => Some (MovHigh BX b1, 2)
  | 0xb8 => Some (Mov AX (b1 + 256 * b2), 3) | 0xb9 => Some (Mov CX (b1 + 256 * b2), 3)
  | 0xba => Some (Mov DX (b1 + 256 * b2), 3) | 0xbb => Some (Mov BX (b1 + 256 * b2), 3)
  | 0xbc => Some (Mov SP (b1 + 256 * b2), 3) | 0xbd => Some (Mov BP (b1 + 256 * b2), 3)
  | 0xbe => Some (Mov SI (b1 + 256 * b2), 3) | 0xbf => Some (Mov DI (b1 + 256 * b2), 3)
  | 0xcd => Some (Interrupt b1, 2)
  | _ => None
  end.
Definition fetch (c : cpu) (m : memory) : option (instruction * N) :=
  decode (byte_at m (seg c CS) (ip c)) (byte_at m (seg c CS) (ip c + 1)) (byte_at m (seg c CS) (ip c + 2)).

(** What an instruction does, after the instruction pointer moved on, and the
    addresses it writes to.  An interrupt is served by the system. *)
Definition perform (i : instruction) (c : cpu) (m : memory) : option (cpu * memory * list N) :=
  match i with
  | Push s =>
      let top := (general c SP + 2 ^ 16 - 2) mod 2 ^ 16 in
      let a := linear (seg c SS) top in
      let b := linear (seg c SS) (top + 1) in
      Some (set_reg c SP top, put (put m a (low (seg c s))) b (high (seg c s)), [a; b])
  | Pop s => Some (set_reg (set_seg c s (word_at m (seg c SS) (general c SP))) SP (general c SP + 2), m, [])
  | Mov r v => Some (set_reg c r v, m, [])
  | MovLow r v => Some (set_reg c r (256 * high (general c r) + v), m, [])
  | MovHigh r v => Some (set_reg c r (256 * v + low (general c r)), m, [])
  | Interrupt _ => None
  end.

(** ** The system *)

(** The memory given to a program: whole paragraphs, that is 16 bytes each. *)
Record block := mkBlock { first : N; paragraphs : N }.
Definition owns (b : block) (a : N) : Prop := 16 * first b <= a < 16 * (first b + paragraphs b).
(** Interrupts can come at any time.  They and the services use up to [u] bytes
    of the stack of the program, below its stack pointer. *)
Definition borrowed (u : N) (c : cpu) (a : N) : Prop :=
  exists k, 1 <= k <= u /\ a = linear (seg c SS) (general c SP + 2 ^ 16 - k).
(** Otherwise they leave the memory of the program alone, and no other. *)
Definition disturbed (b : block) (u : N) (c : cpu) (m m' : memory) : Prop :=
  forall a, owns b a -> ~ borrowed u c a -> m' a = m a.

(** The state of the machine, what was printed so far, and the exit code if the
    program has ended. *)
Record machine := mkMachine { regs : cpu; mem : memory; printed : list N; ended : option N }.

(** A text ends before the first dollar sign. *)
Definition dollar : N := 0x24.
Definition text_at (m : memory) (s off : N) (l : list N) : Prop :=
  (forall i x, nth_error l i = Some x -> byte_at m s (off + N.of_nat i) = x) /\
  byte_at m s (off + N.of_nat (List.length l)) = dollar /\ ~ In dollar l.

(** A step of the program and the addresses it writes to, the system disturbing
    it.  Service 9 of interrupt 0x21 prints the text at DS:DX and may change AL;
    service 0x4c ends the program.  No other interrupt is described. *)
Inductive step (b : block) (u : N) : machine -> list N -> machine -> Prop :=
| step_instruction c m out i n c' m' ws m'' :
    fetch c m = Some (i, n) -> perform i (forward c n) m = Some (c', m', ws) -> disturbed b u c' m' m'' ->
    step b u (mkMachine c m out None) ws (mkMachine c' m'' out None)
| step_print c m out n text al m' :
    fetch c m = Some (Interrupt 0x21, n) -> high (general c AX) = 9 -> text_at m (seg c DS) (general c DX) text ->
    al < 256 -> disturbed b u c m m' ->
    step b u (mkMachine c m out None) []
      (mkMachine (set_reg (forward c n) AX (256 * 9 + al)) m' (out ++ text) None)
| step_exit c m out n m' :
    fetch c m = Some (Interrupt 0x21, n) -> high (general c AX) = 0x4c ->
    step b u (mkMachine c m out None) [] (mkMachine c m' out (Some (low (general c AX)))).
Inductive steps (b : block) (u : N) : machine -> list N -> machine -> Prop :=
| steps_none M : steps b u M [] M
| steps_more M ws M' ws' M'' : step b u M ws M' -> steps b u M' ws' M'' -> steps b u M (ws ++ ws') M''.

(** Whatever the system does, the program gets to a state that is [P], and until
    then writes to its own memory only. *)
Inductive finally (b : block) (u : N) (P : machine -> Prop) : machine -> Prop :=
| finally_now M : P M -> finally b u P M
| finally_later M :
    (exists ws M', step b u M ws M') ->
    (forall ws M', step b u M ws M' -> Forall (owns b) ws) ->
    (forall ws M', step b u M ws M' -> finally b u P M') ->
    finally b u P M.

(** ** The loader *)

(** A field of the header of a file. *)
Definition field (file : list N) (s : string) : N :=
  match find (fun e => (name e =? s)%string) mz_header with
  | Some e => little (firstn (len e) (skipn (start e) file))
  | None => 0
  end.
(** The size of the program with its header: 512 bytes a page, [cblp] on the last
    one unless that is zero. *)
Definition program_size (file : list N) : N :=
  if field file "cblp" =? 0 then 512 * field file "cp"
  else 512 * (field file "cp" - 1) + field file "cblp".
(** The program without its header. *)
Definition image (file : list N) : list N :=
  skipn (N.to_nat (16 * field file "cparhdr")) (firstn (N.to_nat (program_size file)) file).
(** Entries of the relocation table: an offset and a segment. *)
Definition relocations (file : list N) : list (N * N) :=
  map (fun k => let e := skipn (N.to_nat (field file "lfarlc") + 4 * k) file in
                (little (firstn 2 e), little (firstn 2 (skipn 2 e))))
    (seq 0 (N.to_nat (field file "crlc"))).
(** The start segment is added to the word an entry points at. *)
Definition relocate (start : N) (l : list N) (e : N * N) : list N :=
  let p := N.to_nat (16 * snd e + fst e) in
  let w := (little (firstn 2 (skipn p l)) + start) mod 2 ^ 16 in
  firstn p l ++ [low w; high w] ++ skipn (p + 2) l.
(** How many paragraphs a program needs at least. *)
Definition needed (file : list N) : N := (N.of_nat (List.length (image file)) + 15) / 16 + field file "minalloc".

(** The file was loaded into a block of memory below 640 KiB, behind the 256 bytes
    of its prefix, and is about to run.  Nothing is said of the other memory and
    registers. *)
Record loaded (file : list N) (b : block) (M : machine) : Prop := {
  ld_magic : firstn 2 file = [0x4d; 0x5a];
  ld_complete : program_size file <= N.of_nat (List.length file);
  ld_enough : needed file <= paragraphs b;
  ld_place : 16 <= first b /\ first b + paragraphs b <= 0xa000;
  ld_image : forall i x,
    nth_error (fold_left (relocate (first b)) (relocations file) (image file)) i = Some x ->
    mem M (16 * first b + N.of_nat i) = x;
  ld_code : seg (regs M) CS = first b + field file "cs" /\ ip (regs M) = field file "ip";
  ld_stack : seg (regs M) SS = first b + field file "ss" /\ general (regs M) SP = field file "sp";
  ld_prefix : seg (regs M) DS = first b - 16 /\ seg (regs M) ES = first b - 16;
  ld_running : printed M = [] /\ ended M = None;
}.

(** ** The stub *)

(** "This program cannot be run in DOS mode." and the end of a line. *)
Definition message : list N :=
  map (fun c => N.of_nat (Ascii.nat_of_ascii c)) (list_ascii_of_string "This program cannot be run in DOS mode.")
  ++ [13; 13; 10].
