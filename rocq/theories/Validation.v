(* Tests of the model, not proofs of properties: every scenario of /repo/t/*.t is
   replayed on the model with the configuration /repo/t/test.conf, given as text
   and parsed by the model of the parser.  As in /repo/t/test-io.c one keyboard is
   shared by all scenarios, run here in alphabetical order; only key events are compared
   (pauses and layer notifications are not).
   Generated from /repo/t. *)
From Coq Require Import String.
From Verif Require Import Base Keys Types Kbd Config.
Local Open Scope N_scope.

Definition D (c : N) (t : Z) : kev := mkKev c true t.
Definition U (c : N) (t : Z) : kev := mkKev c false t.

(* /repo/t/test.conf, byte for byte *)
Definition test_conf : str := bs "# TODO: Simplify and use mnemonic bindings.

[ids]

2fac:2ade

[global]

chord_interkey_timeout = 100
chord_hold_timeout = 200
overload_tap_timeout = 5

[main]

esc = clear()
meta = layer(mymeta)
leftalt = layer(myalt)
capslock = layer(capslock)
a+b = layer(control)
j+k = c
a+b+d = layer(shift)
1 = layer(layer1)
2 = oneshot(customshift)
w = oneshot(customshift)
e = oneshotm(shift, macro(on))
p = layerm(shift, macro(on))
3 = layer(layer3)
4 = toggle(test)
5 = layer(symbols)
6 = overload(6l, esc)
7 = overload(meta, oneshot(control))
8 = timeout(overload(control, a), 1, b)
9 = M-C-S-x
1+2 = oneshot(test)
l = layer(test)
m = macro(C-h one)
c = oneshot(control)
s = layer(shift)
o = overloadt(control, a, 10)
' = overloadt2(control, ', 10)
; = overloadt(shift, b, 10)
- = toggle(dvorak)
= = timeout(a, 300, b)
\ = 😄
[ = togglem(control, macro(one))
z = overload(control, enter)
/ = z

[altgr]

a = a

[layout2:layout]

a = c

[control]

a = b

[mymeta:M]

a = b

[6l:C]

s = swap(tablayer)
o = overload(meta, macro(\\))
m = macro(mac)
e = macro(leftcontrol o+n leftcontrol+1)
b = macro(leftcontrol+n)
c = macro(leftcontrol n)
x = overload(meta, swap(shift))

[test2]

s = a
x = toggle(test2)

[test]

o = oneshot(o)
a = b
b = toggle(test)
s = swap(test2)
c = clear()

[o:C]

a = b
x = macro(mac)

[dvorak]

x = o

[myalt:A]
m = macro(C-x m)
7 = x
s = swapm(swapped1, M-a)
` = swap(tablayer)
1 = swapm(tablayer, tab)
2 = swapm(tablayer2, tab)

[myalt+control+shift]

h = left

[myalt+control]

h = H

[swapped1:M]

a = M-b
s = swap(swapped2)

[swapped2]

a = c

[symbols]

a = [
b = S-[

[tablayer2:C]

[tablayer]

` = 9
tab = S-x
a = b

[layer1]
h = 1

[layer3:C]
h = 3
\ = macro(1😄2)

[customshift:S]

h = 1
t = toggle(customshift)
b = a
x = macro(o n)

[capslock:C]
alt = layer(target)
j = k

[alt]
capslock = layer(target)

[target]
#w = A-w
b = A-j
".

(* (input, expected key events) *)
Definition t_altgr_modifier_guard : list kev * list (N * bool) :=
  ([D 100 0; D 30 0; U 30 0; U 100 0; D 100 0; U 100 0; D 100 0; D 45 0; U 45 0; U 100 0],
   [(100, true); (29, true); (100, false); (29, false); (30, true); (30, false); (100, true); (29, true); (100, false); (29, false); (100, true); (100, false); (100, true); (45, true); (45, false); (100, false)]).
Definition t_chord_disambiguate : list kev * list (N * bool) :=
  ([D 30 0; D 48 0; U 30 200; U 48 200; D 30 200; D 48 200; D 32 200; U 30 400; U 48 400; U 32 400; D 30 400; D 48 400; D 32 400; U 30 599; U 48 599; U 32 599],
   [(29, true); (29, false); (42, true); (42, false); (30, true); (48, true); (32, true); (30, false); (48, false); (32, false)]).
Definition t_chord_double : list kev * list (N * bool) :=
  ([D 30 0; D 48 20; U 30 219; U 48 219; D 36 219; D 37 219; U 36 420; U 37 420],
   [(30, true); (48, true); (30, false); (48, false); (46, true); (46, false)]).
Definition t_chord_hold : list kev * list (N * bool) :=
  ([D 30 0; D 48 0; D 45 199; U 45 199; U 30 199; U 48 199; D 30 200; D 48 200; D 45 400; U 45 400; U 30 400; U 48 400],
   [(30, true); (48, true); (45, true); (45, false); (30, false); (48, false); (29, true); (45, true); (45, false); (29, false)]).
Definition t_chord : list kev * list (N * bool) :=
  ([D 30 0; D 48 0; U 30 150; U 48 150; D 45 150; U 45 150; D 30 150; D 48 150; U 30 350; U 48 350; D 45 350; U 45 350],
   [(30, true); (48, true); (30, false); (48, false); (45, true); (45, false); (29, true); (29, false); (45, true); (45, false)]).
Definition t_chord2 : list kev * list (N * bool) :=
  ([D 36 0; D 37 20; U 36 220; U 37 220; D 36 220; D 37 320; U 36 520; U 37 520],
   [(46, true); (46, false); (36, true); (37, true); (36, false); (37, false)]).
Definition t_chord3 : list kev * list (N * bool) :=
  ([D 30 0; D 48 0; U 30 200; D 36 200; D 37 200; U 48 400; U 36 400; U 37 400],
   [(29, true); (46, true); (29, false); (46, false)]).
Definition t_clear : list kev * list (N * bool) :=
  ([D 5 0; U 5 0; D 30 0; U 30 0; D 1 0; U 1 0; D 30 0; U 30 0],
   [(48, true); (48, false); (30, true); (30, false)]).
Definition t_composite : list kev * list (N * bool) :=
  ([D 29 0; D 56 0; D 35 0; U 35 0; U 29 0; U 56 0],
   [(29, true); (56, true); (56, false); (42, true); (29, false); (35, true); (35, false); (56, true); (42, false); (29, true); (29, false); (56, false)]).
Definition t_composite2 : list kev * list (N * bool) :=
  ([D 29 0; D 42 0; D 56 0; D 35 0; U 35 0; U 29 0; U 42 0; U 56 0],
   [(29, true); (42, true); (56, true); (56, false); (42, false); (29, false); (105, true); (105, false); (56, true); (42, true); (29, true); (29, false); (42, false); (56, false)]).
Definition t_composite3 : list kev * list (N * bool) :=
  ([D 29 0; D 42 0; D 56 0; D 45 0; U 45 0; U 29 0; U 42 0; U 56 0],
   [(29, true); (42, true); (56, true); (45, true); (45, false); (29, false); (42, false); (56, false)]).
Definition t_composite4 : list kev * list (N * bool) :=
  ([D 29 0; D 56 0; D 45 0; U 45 0; U 29 0; U 56 0],
   [(29, true); (56, true); (45, true); (45, false); (29, false); (56, false)]).
Definition t_control : list kev * list (N * bool) :=
  ([D 29 0; D 30 0; U 30 0; D 48 0; U 48 0; U 29 0; D 97 0; D 30 0; U 30 0; U 97 0],
   [(29, true); (29, false); (48, true); (48, false); (29, true); (48, true); (48, false); (29, false); (29, true); (29, false); (48, true); (48, false); (29, true); (29, false)]).
Definition t_disarm : list kev * list (N * bool) :=
  ([D 56 0; D 30 0; U 30 0; U 56 0],
   [(56, true); (30, true); (30, false); (56, false)]).
Definition t_disarm2 : list kev * list (N * bool) :=
  ([D 56 0; U 56 0],
   [(56, true); (56, false)]).
Definition t_disarm3 : list kev * list (N * bool) :=
  ([D 56 0; D 8 0; U 8 0; U 56 0],
   [(56, true); (29, true); (56, false); (29, false); (45, true); (45, false); (56, true); (29, true); (56, false); (29, false)]).
Definition t_layer : list kev * list (N * bool) :=
  ([D 4 0; D 3 0; D 48 0; U 48 0; U 3 0; U 4 0],
   [(29, true); (42, true); (42, false); (30, true); (30, false); (42, true); (42, false); (29, false)]).
Definition t_layer1 : list kev * list (N * bool) :=
  ([D 58 0; U 58 0; D 30 0; U 30 0],
   [(29, true); (29, false); (30, true); (30, false)]).
Definition t_layer2 : list kev * list (N * bool) :=
  ([D 58 0; D 36 0; U 36 0; U 58 0],
   [(29, true); (29, false); (37, true); (37, false); (29, true); (29, false)]).
Definition t_layer3 : list kev * list (N * bool) :=
  ([D 58 0; D 23 0; U 23 0; U 58 0],
   [(29, true); (23, true); (23, false); (29, false)]).
Definition t_layer4 : list kev * list (N * bool) :=
  ([D 31 0; D 125 0; D 23 0; U 23 0; U 125 0; U 31 0],
   [(42, true); (125, true); (23, true); (23, false); (125, false); (42, false)]).
Definition t_layerm : list kev * list (N * bool) :=
  ([D 25 0; D 45 0; U 45 0; D 45 0; U 45 0; U 25 0; D 45 0; U 45 0],
   [(24, true); (24, false); (49, true); (49, false); (42, true); (45, true); (45, false); (45, true); (45, false); (42, false); (45, true); (45, false)]).
Definition t_layout_mods : list kev * list (N * bool) :=
  ([D 6 0; D 30 0; D 48 0; U 48 0; U 30 0; U 6 0],
   [(26, true); (26, false); (42, true); (26, true); (26, false); (42, false)]).
Definition t_layout_mods2 : list kev * list (N * bool) :=
  ([D 6 0; D 48 0; D 30 0; U 48 0; U 30 0; U 6 0],
   [(42, true); (26, true); (26, false); (42, false); (26, true); (26, false)]).
Definition t_layout_seq : list kev * list (N * bool) :=
  ([D 10 0; U 10 0],
   [(42, true); (125, true); (29, true); (45, true); (45, false); (42, false); (125, false); (29, false)]).
Definition t_layout : list kev * list (N * bool) :=
  ([D 12 0; U 12 0; D 45 0; U 45 0; D 12 0; U 12 0; D 56 0; D 10 0; U 10 0; U 56 0; D 45 0; U 45 0],
   [(24, true); (24, false); (56, true); (42, true); (125, true); (29, true); (45, true); (45, false); (42, false); (125, false); (29, false); (56, false); (45, true); (45, false)]).
Definition t_layout2 : list kev * list (N * bool) :=
  ([D 12 0; U 12 0; D 45 0; U 45 0; D 29 0; D 45 0; U 45 0; U 29 0; D 12 0; U 12 0],
   [(24, true); (24, false); (29, true); (24, true); (24, false); (29, false)]).
Definition t_macro_disarm : list kev * list (N * bool) :=
  ([D 56 0; D 50 0; U 50 0; U 56 0],
   [(56, true); (29, true); (56, false); (29, false); (29, true); (45, true); (45, false); (29, false); (50, true); (50, false); (56, true); (29, true); (56, false); (29, false)]).
Definition t_macro_hold_1 : list kev * list (N * bool) :=
  ([D 7 0; D 48 0; U 48 0; U 7 0],
   [(29, true); (29, false); (29, true); (49, true); (29, false); (49, false); (29, true); (29, false)]).
Definition t_macro_hold_2 : list kev * list (N * bool) :=
  ([D 7 0; D 46 0; U 46 0; U 7 0],
   [(29, true); (29, false); (29, true); (29, false); (49, true); (49, false); (29, true); (29, false)]).
Definition t_macro_hold : list kev * list (N * bool) :=
  ([D 7 0; D 18 0; U 18 0; U 7 0],
   [(29, true); (29, false); (29, true); (29, false); (24, true); (49, true); (24, false); (49, false); (29, true); (2, true); (29, false); (2, false); (29, true); (29, false)]).
Definition t_macro_nested : list kev * list (N * bool) :=
  ([D 7 0; D 50 0; U 50 0; U 7 0],
   [(29, true); (29, false); (50, true); (50, false); (30, true); (30, false); (46, true); (46, false); (29, true); (29, false)]).
Definition t_macro_unicode_2 : list kev * list (N * bool) :=
  ([D 4 0; D 43 0; U 43 0; U 4 0],
   [(29, true); (29, false); (2, true); (2, false); (223, true); (223, false); (24, true); (24, false); (21, true); (21, false); (7, true); (7, false); (3, true); (3, false); (29, true); (29, false)]).
Definition t_macro_unicode : list kev * list (N * bool) :=
  ([D 43 0; U 43 0],
   [(223, true); (223, false); (24, true); (24, false); (21, true); (21, false); (7, true); (7, false)]).
Definition t_macro : list kev * list (N * bool) :=
  ([D 50 0; U 50 0],
   [(29, true); (35, true); (35, false); (29, false); (24, true); (24, false); (49, true); (49, false); (18, true); (18, false)]).
Definition t_meta : list kev * list (N * bool) :=
  ([D 125 0; D 30 0; U 30 0; U 125 0; D 126 0; D 30 0; U 30 0; U 126 0],
   [(125, true); (29, true); (125, false); (29, false); (48, true); (48, false); (125, true); (29, true); (125, false); (29, false); (125, true); (29, true); (125, false); (29, false); (48, true); (48, false); (125, true); (29, true); (125, false); (29, false)]).
Definition t_mod : list kev * list (N * bool) :=
  ([D 58 0; D 30 0; D 48 0; U 58 0; U 30 0; U 48 0],
   [(29, true); (30, true); (48, true); (29, false); (30, false); (48, false)]).
Definition t_mod2 : list kev * list (N * bool) :=
  ([D 58 0; D 30 0; U 58 0; D 48 0; U 30 0; U 48 0],
   [(29, true); (30, true); (29, false); (48, true); (30, false); (48, false)]).
Definition t_mod3 : list kev * list (N * bool) :=
  ([D 58 0; D 30 0; D 48 0; U 30 0; U 48 0; U 58 0],
   [(29, true); (30, true); (48, true); (30, false); (48, false); (29, false)]).
Definition t_oneshot_overload : list kev * list (N * bool) :=
  ([D 46 0; U 46 0; D 7 0; U 7 0],
   [(29, true); (1, true); (1, false); (29, false)]).
Definition t_oneshot_single_key : list kev * list (N * bool) :=
  ([D 3 0; U 3 0; D 22 0; D 23 0; U 22 0; U 23 0],
   [(42, true); (22, true); (42, false); (23, true); (22, false); (23, false)]).
Definition t_oneshot : list kev * list (N * bool) :=
  ([D 46 0; U 46 0; D 48 0; U 48 0],
   [(29, true); (48, true); (48, false); (29, false)]).
Definition t_oneshot10 : list kev * list (N * bool) :=
  ([D 3 0; U 3 0; D 45 0; U 45 0; D 45 0; U 45 0],
   [(42, true); (42, false); (24, true); (24, false); (49, true); (49, false); (45, true); (45, false)]).
Definition t_oneshot11 : list kev * list (N * bool) :=
  ([D 38 0; D 24 0; U 24 0; U 38 0; D 36 0; U 36 0; D 30 0; U 30 0],
   [(29, true); (36, true); (36, false); (29, false); (30, true); (30, false)]).
Definition t_oneshot12 : list kev * list (N * bool) :=
  ([D 3 0; U 3 0; D 45 0; U 45 0; D 3 0; D 30 0; U 30 0; U 3 0; D 45 0; U 45 0],
   [(42, true); (42, false); (24, true); (24, false); (49, true); (49, false); (42, true); (30, true); (30, false); (42, false); (45, true); (45, false)]).
Definition t_oneshot14 : list kev * list (N * bool) :=
  ([D 3 0; D 17 0; U 3 0; U 17 0; D 48 0; U 48 0; D 48 0; U 48 0],
   [(42, true); (42, false); (30, true); (30, false); (48, true); (48, false)]).
Definition t_oneshot2 : list kev * list (N * bool) :=
  ([D 3 0; D 30 0; U 30 0; U 3 0],
   [(42, true); (30, true); (30, false); (42, false)]).
Definition t_oneshot3 : list kev * list (N * bool) :=
  ([D 46 0; D 3 0; D 48 0; U 48 0; U 3 0; U 46 0],
   [(29, true); (42, true); (42, false); (30, true); (30, false); (42, true); (42, false); (29, false)]).
Definition t_oneshot4 : list kev * list (N * bool) :=
  ([D 46 0; D 3 0; D 23 0; U 23 0; U 3 0; U 46 0],
   [(29, true); (42, true); (23, true); (23, false); (42, false); (29, false)]).
Definition t_oneshot5 : list kev * list (N * bool) :=
  ([D 3 0; D 46 0; U 3 0; U 46 0; D 23 0; U 23 0],
   [(42, true); (29, true); (23, true); (23, false); (42, false); (29, false)]).
Definition t_oneshot6 : list kev * list (N * bool) :=
  ([D 3 0; U 3 0; D 46 0; U 46 0; D 23 0; U 23 0],
   [(42, true); (29, true); (23, true); (23, false); (42, false); (29, false)]).
Definition t_oneshot9 : list kev * list (N * bool) :=
  ([D 46 0; U 46 0; D 23 0; U 23 0],
   [(29, true); (23, true); (23, false); (29, false)]).
Definition t_oneshotm : list kev * list (N * bool) :=
  ([D 18 0; U 18 0; D 45 0; U 45 0; D 45 0; U 45 0],
   [(24, true); (24, false); (49, true); (49, false); (42, true); (45, true); (45, false); (42, false); (45, true); (45, false)]).
Definition t_oneshotn : list kev * list (N * bool) :=
  ([D 46 0; U 46 0; D 30 0; U 30 0],
   [(29, true); (29, false); (48, true); (48, false)]).
Definition t_oneshotn3 : list kev * list (N * bool) :=
  ([D 46 0; D 3 0; U 3 0; U 46 0; D 23 0; U 23 0],
   [(29, true); (42, true); (23, true); (23, false); (42, false); (29, false)]).
Definition t_overload_expire : list kev * list (N * bool) :=
  ([D 7 0; U 7 5; D 45 5; U 45 5; D 7 5; U 7 9],
   [(29, true); (29, false); (45, true); (45, false); (29, true); (29, false); (1, true); (1, false)]).
Definition t_overload_expire2 : list kev * list (N * bool) :=
  ([D 24 0; U 24 4; D 24 4; U 24 10],
   [(30, true); (30, false); (30, true); (30, false)]).
Definition t_overload_nested : list kev * list (N * bool) :=
  ([D 7 0; D 24 0; D 30 0; U 30 0; U 24 0; U 7 0],
   [(29, true); (125, true); (30, true); (30, false); (125, false); (29, false)]).
Definition t_overload_nested2 : list kev * list (N * bool) :=
  ([D 7 0; D 24 0; U 24 0; U 7 0],
   [(29, true); (125, true); (125, false); (29, false); (43, true); (43, false)]).
Definition t_overload_oneshot : list kev * list (N * bool) :=
  ([D 29 0; D 8 0; U 8 0; U 29 0; D 45 0; U 45 0],
   [(29, true); (125, true); (125, false); (45, true); (45, false); (29, false)]).
Definition t_overload_same_key : list kev * list (N * bool) :=
  ([D 44 0; D 53 0; U 53 0; U 44 0],
   [(29, true); (44, true); (44, false); (29, false)]).
Definition t_overload_swap : list kev * list (N * bool) :=
  ([D 7 0; D 45 0; U 45 0; D 30 0; U 30 0; U 7 0; D 7 0; D 45 0; D 30 0; U 30 0; U 45 0; U 7 0],
   [(29, true); (125, true); (125, false); (42, true); (29, false); (30, true); (30, false); (42, false); (29, true); (125, true); (30, true); (30, false); (125, false); (29, false)]).
Definition t_overload : list kev * list (N * bool) :=
  ([D 7 0; U 7 0],
   [(29, true); (29, false); (1, true); (1, false)]).
Definition t_overload1 : list kev * list (N * bool) :=
  ([D 7 0; D 30 0; U 30 0; U 7 0],
   [(29, true); (30, true); (30, false); (29, false)]).
Definition t_overload2 : list kev * list (N * bool) :=
  ([D 7 0; D 30 0; U 7 0; U 30 0],
   [(29, true); (30, true); (29, false); (30, false)]).
Definition t_overload3 : list kev * list (N * bool) :=
  ([D 36 0; D 7 0; U 36 0; U 7 0],
   [(36, true); (29, true); (36, false); (29, false); (1, true); (1, false)]).
Definition t_overload4 : list kev * list (N * bool) :=
  ([D 29 0; D 7 0; U 7 0; U 29 0],
   [(29, true); (1, true); (1, false); (29, false)]).
Definition t_overload5 : list kev * list (N * bool) :=
  ([D 8 0; U 8 0; D 45 0; U 45 0; D 8 0; D 45 0; U 45 0; U 8 0],
   [(125, true); (29, true); (125, false); (29, false); (29, true); (45, true); (45, false); (29, false); (125, true); (45, true); (45, false); (125, false)]).
Definition t_overload_2_2 : list kev * list (N * bool) :=
  ([D 24 0; D 39 0; U 24 11; U 39 11],
   [(29, true); (29, false); (42, true); (42, false)]).
Definition t_overload_2 : list kev * list (N * bool) :=
  ([D 24 0; U 24 0; D 24 0; U 24 9; D 24 9; U 24 20; D 24 20; D 45 20; U 45 20; U 24 20; D 24 20; D 45 20; U 24 20; U 45 20],
   [(30, true); (30, false); (30, true); (30, false); (29, true); (29, false); (30, true); (45, true); (45, false); (30, false); (30, true); (45, true); (30, false); (45, false)]).
Definition t_overload_3 : list kev * list (N * bool) :=
  ([D 40 0; D 45 0; U 45 0; U 40 0; D 40 0; D 45 0; U 40 0; U 45 0; D 40 0; D 45 0; U 40 11; U 45 11],
   [(29, true); (45, true); (45, false); (29, false); (40, true); (45, true); (40, false); (45, false); (29, true); (45, true); (29, false); (45, false)]).
Definition t_swap_oneshot : list kev * list (N * bool) :=
  ([D 2 0; D 3 0; U 2 300; U 3 300; D 30 300; U 30 300],
   [(48, true); (48, false)]).
Definition t_swap_toggle : list kev * list (N * bool) :=
  ([D 5 0; U 5 0; D 31 0; U 31 0; D 31 0; U 31 0; D 45 0; U 45 0; D 31 0; U 31 0],
   [(30, true); (30, false); (42, true); (42, false)]).
Definition t_swap : list kev * list (N * bool) :=
  ([D 56 0; D 41 0; U 41 0; D 15 0; U 15 0; D 15 0; U 15 0; D 30 0; U 30 0; U 56 0],
   [(56, true); (29, true); (56, false); (29, false); (42, true); (45, true); (45, false); (42, false); (42, true); (45, true); (45, false); (42, false); (48, true); (48, false)]).
Definition t_swap2 : list kev * list (N * bool) :=
  ([D 56 0; D 41 0; U 41 0; D 41 0; U 41 0; D 15 0; U 15 0; D 15 0; U 15 0; D 30 0; U 30 0; U 56 0],
   [(56, true); (29, true); (56, false); (29, false); (10, true); (10, false); (42, true); (45, true); (45, false); (42, false); (42, true); (45, true); (45, false); (42, false); (48, true); (48, false)]).
Definition t_swap3 : list kev * list (N * bool) :=
  ([D 46 0; D 56 0; D 41 0; U 41 0; D 15 0; U 15 0; D 15 0; U 15 0; U 46 0; D 30 0; U 30 0; D 45 0; U 45 0; U 56 0; U 46 0],
   [(29, true); (56, true); (56, false); (42, true); (45, true); (45, false); (42, false); (42, true); (45, true); (45, false); (42, false); (29, false); (48, true); (48, false); (45, true); (45, false)]).
Definition t_swap4 : list kev * list (N * bool) :=
  ([D 56 0; D 2 0; U 2 0; D 15 0; U 15 0; D 15 0; U 15 0; D 30 0; U 30 0; D 45 0; U 45 0; U 56 0],
   [(56, true); (29, true); (56, false); (29, false); (15, true); (15, false); (42, true); (45, true); (45, false); (42, false); (42, true); (45, true); (45, false); (42, false); (48, true); (48, false); (45, true); (45, false)]).
Definition t_swap5 : list kev * list (N * bool) :=
  ([D 125 0; D 56 0; D 3 0; U 3 0; D 45 0; U 45 0; U 56 0; U 125 0],
   [(125, true); (56, true); (29, true); (56, false); (29, false); (29, true); (15, true); (15, false); (45, true); (45, false); (29, false); (125, false)]).
Definition t_swap6 : list kev * list (N * bool) :=
  ([D 7 0; D 31 0; U 31 0; D 30 0; U 30 0; U 7 0],
   [(29, true); (29, false); (48, true); (48, false)]).
Definition t_swap8 : list kev * list (N * bool) :=
  ([D 46 0; D 56 0; D 41 0; U 41 0; D 15 0; U 15 0; D 15 0; U 15 0; U 46 0; D 30 0; U 30 0; D 45 0; U 45 0; U 56 0; U 46 0],
   [(29, true); (56, true); (56, false); (42, true); (45, true); (45, false); (42, false); (42, true); (45, true); (45, false); (42, false); (29, false); (48, true); (48, false); (45, true); (45, false)]).
Definition t_swap9 : list kev * list (N * bool) :=
  ([D 56 0; D 31 0; U 31 0; D 30 0; U 30 0; U 56 0],
   [(56, true); (29, true); (56, false); (29, false); (125, true); (30, true); (30, false); (48, true); (48, false); (125, false)]).
Definition t_timeout1 : list kev * list (N * bool) :=
  ([D 13 0; U 13 299; D 13 299; U 13 600; D 13 600; D 45 700; U 13 900; U 45 900],
   [(30, true); (30, false); (48, true); (48, false); (30, true); (45, true); (30, false); (45, false)]).
Definition t_timeout2 : list kev * list (N * bool) :=
  ([D 9 0; D 45 0; U 45 0; U 9 0; D 9 0; U 9 0; D 9 0; U 9 2],
   [(29, true); (45, true); (45, false); (29, false); (29, true); (29, false); (30, true); (30, false); (48, true); (48, false)]).
Definition t_toggle_2 : list kev * list (N * bool) :=
  ([D 3 0; U 3 0; D 20 0; U 20 0; D 48 0; U 48 0; D 48 0; U 48 0; D 20 0; U 20 0; D 48 0; U 48 0],
   [(42, true); (42, false); (30, true); (30, false); (42, true); (42, false); (30, true); (30, false); (42, true); (42, false); (48, true); (48, false)]).
Definition t_toggle : list kev * list (N * bool) :=
  ([D 5 0; U 5 0; D 30 0; U 30 0; D 30 0; U 30 0; D 48 0; U 48 0],
   [(48, true); (48, false); (48, true); (48, false)]).
Definition t_toggle2 : list kev * list (N * bool) :=
  ([D 26 0; U 26 0; D 37 0; U 37 0; D 26 0; U 26 0],
   [(24, true); (24, false); (49, true); (49, false); (18, true); (18, false); (29, true); (37, true); (37, false); (24, true); (24, false); (49, true); (49, false); (18, true); (18, false); (29, false)]).
Definition scenarios := [t_altgr_modifier_guard; t_chord_disambiguate; t_chord_double; t_chord_hold; t_chord; t_chord2; t_chord3; t_clear; t_composite; t_composite2; t_composite3; t_composite4; t_control; t_disarm; t_disarm2; t_disarm3; t_layer; t_layer1; t_layer2; t_layer3; t_layer4; t_layerm; t_layout_mods; t_layout_mods2; t_layout_seq; t_layout; t_layout2; t_macro_disarm; t_macro_hold_1; t_macro_hold_2; t_macro_hold; t_macro_nested; t_macro_unicode_2; t_macro_unicode; t_macro; t_meta; t_mod; t_mod2; t_mod3; t_oneshot_overload; t_oneshot_single_key; t_oneshot; t_oneshot10; t_oneshot11; t_oneshot12; t_oneshot14; t_oneshot2; t_oneshot3; t_oneshot4; t_oneshot5; t_oneshot6; t_oneshot9; t_oneshotm; t_oneshotn; t_oneshotn3; t_overload_expire; t_overload_expire2; t_overload_nested; t_overload_nested2; t_overload_oneshot; t_overload_same_key; t_overload_swap; t_overload; t_overload1; t_overload2; t_overload3; t_overload4; t_overload5; t_overload_2_2; t_overload_2; t_overload_3; t_swap_oneshot; t_swap_toggle; t_swap; t_swap2; t_swap3; t_swap4; t_swap5; t_swap6; t_swap8; t_swap9; t_timeout1; t_timeout2; t_toggle_2; t_toggle; t_toggle2].


Definition keys_of (out : list oev) : list (N * bool) :=
  flat_map (fun o => match o with OKey c p => [(c, p)] | _ => [] end) (rev out).

Definition pair_eqb (x y : N * bool) : bool := (fst x =? fst y) && Bool.eqb (snd x) (snd y).
Fixpoint list_eqb (a b : list (N * bool)) : bool :=
  match a, b with
  | [], [] => true
  | x :: a', y :: b' => pair_eqb x y && list_eqb a' b'
  | _, _ => false
  end.

(* The indices of the scenarios whose output differs. *)
Fixpoint run_all (k : kbd) (ts : list (list kev * list (N * bool))) (i : nat) : list nat :=
  match ts with
  | [] => []
  | (inp, exp) :: r =>
      match kbd_process_events 400 (set_k_out [] k) inp with
      | Ok (k', _) =>
          if list_eqb (keys_of (k_out k')) exp then run_all k' r (S i)
          else i :: run_all k' r (S i)
      | _ => [i]
      end
  end.

Definition validate (conf : str) : option (list nat) :=
  match config_parse conf with
  | Ok (Some c) => Some (run_all (new_keyboard c 1) scenarios 0)
  | _ => None
  end.

Example validation_passes : validate test_conf = Some [].
Proof. vm_compute. reflexivity. Qed.
