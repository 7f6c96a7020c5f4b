(* Specification vocabulary for the notations of keys, modifier sets, characters and
   typed text (C34-C38). *)
From Coq Require Import String.
From Verif Require Import Base KeyTable Types.
Local Open Scope N_scope.

(* ---- modifiers -------------------------------------------------------------- *)
(* the five letters and the bit of a modifier set each stands for *)
Inductive letter : N -> N -> Prop :=
| letter_A : letter 65 0     (* alt *)
| letter_M : letter 77 1     (* meta *)
| letter_S : letter 83 2     (* shift *)
| letter_C : letter 67 3     (* control *)
| letter_G : letter 71 4.    (* altgr *)
(* the set m consists of exactly the modifiers the letters ls stand for *)
Definition denotes (ls : list N) (m : N) : Prop :=
  Forall (fun l => exists b, letter l b) ls
  /\ forall b, N.testbit m b = true <-> exists l, In l ls /\ letter l b.
(* letters written with a dash after each *)
Definition dashed (ls : list N) : str := flat_map (fun l => [l; 45]) ls.
(* ... and between each *)
Fixpoint joined (ls : list N) : str :=
  match ls with
  | [] => []
  | [l] => [l]
  | l :: r => l :: 45 :: joined r
  end.

(* ---- key names (the table of keys.c) ----------------------------------------- *)
Definition row (c : N) : keyent := nth (N.to_nat c) keycode_table no_key.
Definition name_of (c : N) : option str := fst (fst (row c)).
Definition alt_name_of (c : N) : option str := snd (fst (row c)).
Definition shifted_name_of (c : N) : option str := snd (row c).

(* ---- UTF-8 (RFC 3629) ---------------------------------------------------------- *)
Definition utf8 (cp : N) : str :=
  if cp <? 128 then [cp]
  else if cp <? 2048 then [192 + cp / 64; 128 + cp mod 64]
  else if cp <? 65536 then [224 + cp / 4096; 128 + cp / 64 mod 64; 128 + cp mod 64]
  else [240 + cp / 262144; 128 + cp / 4096 mod 64; 128 + cp / 64 mod 64; 128 + cp mod 64].
(* code points that can occur in a text: not NUL *)
Definition scalar (cp : N) : Prop := 0 < cp < 1114112.

(* ---- the US keyboard -------------------------------------------------------------- *)
(* [us_rows]: key code of the leftmost key, characters without and with shift *)
Definition us_rows : list (N * str * str) :=
  [(2, bs "1234567890-=", bs "!@#$%^&*()_+");
   (16, bs "qwertyuiop[]", bs "QWERTYUIOP{}");
   (30, bs "asdfghjkl;'`", bs "ASDFGHJKL:""~");
   (43, bs "\zxcvbnm,./", bs "|ZXCVBNM<>?")].
(* the key and shift state that type the character *)
Definition us_key (c : N) (code : N) (shift : bool) : Prop :=
  exists first plain shifted i, In (first, plain, shifted) us_rows
    /\ (i < List.length plain)%nat
    /\ code = first + N.of_nat i
    /\ nth i (if shift then shifted else plain) 0 = c.
(* what a typist does: shift down, key down, key up, shift up *)
Definition strokes (code : N) (shift : bool) : list oev :=
  (if shift then [OKey 42 true] else []) ++ [OKey code true; OKey code false]
  ++ (if shift then [OKey 42 false] else []).
Inductive typed : str -> list oev -> Prop :=
| typed_nil : typed [] []
| typed_cons c code shift s o : us_key c code shift -> typed s o -> typed (c :: s) (strokes code shift ++ o).
(* printable ASCII without the blank *)
Definition visible (c : N) : Prop := 33 <= c <= 126.

(* ---- macros ---------------------------------------------------------------------- *)
(* a key with modifiers; keys struck together; a character of the compose table; a pause *)
Inductive gitem := GKey (code : N) | GPause (ms : N).
Inductive element :=
| EKey (mods code : N)
| EGroup (items : list gitem)
| EChar (idx : N)
| EPause (ms : N).
(* how a macro stores it *)
Definition encode (e : element) : list mentry :=
  match e with
  | EKey mods code => [mkM MKeySeq (mods * 256 + code)]
  | EGroup items =>
      map (fun g => match g with GKey c => mkM MHold c | GPause t => mkM MTimeout t end) items ++ [mkM MRelease 0]
  | EChar idx => [mkM MUnicode idx]
  | EPause ms => [mkM MTimeout ms]
  end.
(* modifier bit and key, in the order they are pressed: alt, altgr, shift, meta, control *)
Definition mod_keys : list (N * N) := [(0, 56); (4, 100); (2, 42); (1, 125); (3, 29)].
Definition keys_of_mods (mods : N) : list N :=
  map snd (filter (fun bk => N.testbit mods (fst bk)) mod_keys).
Definition down (c : N) : oev := OKey c true.
Definition up (c : N) : oev := OKey c false.
Definition group_keys (items : list gitem) : list N :=
  flat_map (fun g => match g with GKey c => [c] | GPause _ => [] end) items.
(* the digits and letters, in the order of the compose table *)
Definition alnum : list N :=
  [11; 2; 3; 4; 5; 6; 7; 8; 9; 10; 30; 48; 46; 32; 18; 33; 34; 35; 23; 36; 37; 38; 50; 49; 24; 25; 16; 19; 31;
   20; 22; 47; 17; 45; 21; 44].
Definition compose_keys (idx : N) : list N :=
  [223; nth (N.to_nat (idx / 1296)) alnum 0; nth (N.to_nat (idx / 36 mod 36)) alnum 0; nth (N.to_nat (idx mod 36)) alnum 0].
(* what performing it sends *)
Definition says (e : element) : list oev :=
  match e with
  | EKey mods code =>
      map down (keys_of_mods mods) ++ [down code; up code] ++ map up (keys_of_mods mods)
  | EGroup items =>
      map (fun g => match g with GKey c => down c | GPause t => OSleep (t * 1000) end) items
      ++ map up (group_keys items)
  | EChar idx => flat_map (fun c => [down c; up c]) (compose_keys idx)
  | EPause ms => [OSleep (ms * 1000)]
  end.
Definition in_range (e : element) : Prop :=
  match e with
  | EKey mods code => mods < 32 /\ code < 256
  | EGroup items => Forall (fun g => match g with GKey c => c < 256 | GPause t => t < 65536 end) items
  | EChar idx => 0 < idx < 46656
  | EPause ms => ms < 65536
  end.
(* no pause inside a group after its first key *)
Fixpoint keys_then (items : list gitem) : Prop :=
  match items with
  | GPause _ :: r => keys_then r
  | l => Forall (fun g => match g with GKey _ => True | GPause _ => False end) l
  end.
Definition plain_groups (e : element) : Prop :=
  match e with EGroup items => keys_then items | _ => True end.
(* the events of a trace (oldest first) that are not pauses *)
Definition key_events (o : list oev) : list oev :=
  filter (fun e => match e with OSleep _ => false | _ => true end) o.
(* whether the key ends up pressed, given whether it was *)
Definition after (c : N) (o : list oev) (before : bool) : bool :=
  fold_left (fun b e => match e with OKey c' p => if c' =? c then p else b | _ => b end) o before.

(* a word that reads as a key with modifiers, or as a pause *)
Definition key_notation (w : str) : Prop :=
  exists ls nm c, w = dashed ls ++ nm /\ Forall (fun l => exists b, letter l b) ls
    /\ (name_of c = Some nm \/ alt_name_of c = Some nm \/ shifted_name_of c = Some nm).
Definition pause_notation (w : str) : Prop :=
  exists ds, ds <> [] /\ Forall (fun c => 48 <= c <= 57) ds /\ w = ds ++ bs "ms".
(* literal text: printable, none of the other notations of a macro *)
Definition literal (w : str) : Prop :=
  w <> [] /\ Forall visible w /\ ~ key_notation w /\ ~ pause_notation w /\ ~ In 43 w.
Fixpoint sentence (ws : list str) : str :=
  match ws with
  | [] => []
  | [w] => w
  | w :: r => w ++ 32 :: sentence r
  end.
