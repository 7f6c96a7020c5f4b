(* Specification vocabulary for stuck keys (C25). *)
From Verif Require Import Base Keys Types MacroExec Kbd Config Hist Outside SpecMods SpecNotation SpecHist SpecActions SpecAccount SpecDefer.

Definition is_macro (d : desc) : bool := match d with DMacro _ | DMacro2 _ _ _ => true | _ => false end.
(* a macro that leaves no key pressed that was not pressed before *)
Definition lets_go (m : macro) : Prop :=
  forall t c b, after c (macro_execute m t) b = true -> b = true.

(* Actions that leave no key behind.  T gives the nested actions by number, M the
   modifiers of the layers by number; tg says whether the configuration toggles layers.
   Excluded: clearm; overload of a macro; and toggling layers together with oneshot
   layers that have modifiers.  (Excluded by [tame] already: swap; overload of an action
   decided later or chosen by overloadi; overloadi of overloadi.) *)
Definition neat_desc (T : nat -> desc) (M : nat -> N) (tg : bool) (d : desc) : Prop :=
  match d with
  | DClearM _ => False
  | DOverload _ a => is_macro (T a) = false
  | DToggle _ | DToggleM _ _ => tg = true
  | DOneshot l | DOneshotM l _ => tg = true -> M l = 0%N
  | _ => True
  end.
Record neat (T : nat -> desc) (K : nat -> bool) (M : nat -> N) (tg : bool) (c : config) : Prop := {
  nt_tame : tame T K c;
  nt_mods : forall i, ly_mods (nth i (c_layers c) zero_layer) = M i;
  nt_layouts : forall i, K i = true -> M i = 0%N;
  nt_keys : forall i code, neat_desc T M tg (ly_keymap (nth i (c_layers c) zero_layer) code);
  nt_chords : forall i ch, In ch (ly_chords (nth i (c_layers c) zero_layer)) -> neat_desc T M tg (ch_d ch);
  nt_descs : forall d, In d (c_descs c) -> neat_desc T M tg d }.

(* no key is held, as far as the engine remembers *)
Definition none_held (k : kbd) : Prop := forall e, In e (k_cache k) -> ce_code e = 0%N.
(* no layer is toggled on or waiting as oneshot *)
Definition layers_idle (k : kbd) : Prop :=
  forall i, is_layer k i -> toggled k i = false /\ oneshots k i = 0%N.

(* Undecided keys have actions to choose from: T gives the first n nested actions. *)
Definition firm_desc (T : nat -> desc) (n : nat) (d : desc) : Prop :=
  match d with
  | DOverloadT _ a _ | DOverloadT2 _ a _ => a < n /\ T a <> DNone
  | DTimeout a _ b => (a < n /\ T a <> DNone) /\ b < n /\ T b <> DNone
  | _ => True
  end.
Record firm (T : nat -> desc) (n : nat) (c : config) : Prop := {
  fm_chordless : chordless c;
  fm_count : n <= length (c_descs c);
  fm_keys : forall i code, firm_desc T n (ly_keymap (nth i (c_layers c) zero_layer) code);
  fm_descs : forall d, In d (c_descs c) -> firm_desc T n d }.

Definition sound (T : nat -> desc) (K : nat -> bool) (M : nat -> N) (tg : bool) (n : nat) (c : config) : Prop :=
  neat T K M tg c /\ firm T n c.

(* histories with the events fed to the engine, oldest first *)
Inductive fed (G : config -> Prop) (c : config) : kbd -> list kev -> Prop :=
| fed_init clk : (1 <= clk)%Z -> G c -> fed G c (new_keyboard c clk) []
| fed_events k before fuel evs k' t :
    fed G c k before -> kbd_process_events fuel k evs = Ok (k', t) -> fed G c k' (before ++ evs)
| fed_eval k before exp k' ok :
    fed G c k before -> kbd_eval k exp = Ok (k', ok) -> G (k_cfg k') -> fed G c k' before
| fed_outside k before k' : fed G c k before -> outside k k' -> fed G c k' before.
(* the key is physically down after these events *)
Definition finger (x : N) (evs : list kev) : bool :=
  fold_left (fun b e => if (ev_code e =? x)%N then ev_pressed e else b) evs false.
Definition hands_off (evs : list kev) : Prop := forall x, x <> 0%N -> finger x evs = false.
