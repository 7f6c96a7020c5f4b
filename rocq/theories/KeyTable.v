(* Generated from /repo/src/keys.c:18-270 (keycode_table) by reading the
   designated initialisers: one row per key code 0..255 in order,
   (name, alternative name, shifted name); rows without initialiser are all
   absent (NULL). *)
From Coq Require Import String.
From Verif Require Import Base.
Local Open Scope string_scope.

Definition keyent : Type := (option str * option str * option str)%type.

Definition no_key : keyent := (None, None, None).

Definition keycode_table : list keyent := Eval vm_compute in [
  no_key (* 0 *);
  (Some (bs "esc"), Some (bs "escape"), None) (* 1 *);
  (Some (bs "1"), None, Some (bs "!")) (* 2 *);
  (Some (bs "2"), None, Some (bs "@")) (* 3 *);
  (Some (bs "3"), None, Some (bs "#")) (* 4 *);
  (Some (bs "4"), None, Some (bs "$")) (* 5 *);
  (Some (bs "5"), None, Some (bs "%")) (* 6 *);
  (Some (bs "6"), None, Some (bs "^")) (* 7 *);
  (Some (bs "7"), None, Some (bs "&")) (* 8 *);
  (Some (bs "8"), None, Some (bs "*")) (* 9 *);
  (Some (bs "9"), None, Some (bs "(")) (* 10 *);
  (Some (bs "0"), None, Some (bs ")")) (* 11 *);
  (Some (bs "-"), Some (bs "minus"), Some (bs "_")) (* 12 *);
  (Some (bs "="), Some (bs "equal"), Some (bs "+")) (* 13 *);
  (Some (bs "backspace"), None, None) (* 14 *);
  (Some (bs "tab"), None, None) (* 15 *);
  (Some (bs "q"), None, Some (bs "Q")) (* 16 *);
  (Some (bs "w"), None, Some (bs "W")) (* 17 *);
  (Some (bs "e"), None, Some (bs "E")) (* 18 *);
  (Some (bs "r"), None, Some (bs "R")) (* 19 *);
  (Some (bs "t"), None, Some (bs "T")) (* 20 *);
  (Some (bs "y"), None, Some (bs "Y")) (* 21 *);
  (Some (bs "u"), None, Some (bs "U")) (* 22 *);
  (Some (bs "i"), None, Some (bs "I")) (* 23 *);
  (Some (bs "o"), None, Some (bs "O")) (* 24 *);
  (Some (bs "p"), None, Some (bs "P")) (* 25 *);
  (Some (bs "["), Some (bs "leftbrace"), Some (bs "{")) (* 26 *);
  (Some (bs "]"), Some (bs "rightbrace"), Some (bs "}")) (* 27 *);
  (Some (bs "enter"), None, None) (* 28 *);
  (Some (bs "leftcontrol"), Some (bs ""), None) (* 29 *);
  (Some (bs "a"), None, Some (bs "A")) (* 30 *);
  (Some (bs "s"), None, Some (bs "S")) (* 31 *);
  (Some (bs "d"), None, Some (bs "D")) (* 32 *);
  (Some (bs "f"), None, Some (bs "F")) (* 33 *);
  (Some (bs "g"), None, Some (bs "G")) (* 34 *);
  (Some (bs "h"), None, Some (bs "H")) (* 35 *);
  (Some (bs "j"), None, Some (bs "J")) (* 36 *);
  (Some (bs "k"), None, Some (bs "K")) (* 37 *);
  (Some (bs "l"), None, Some (bs "L")) (* 38 *);
  (Some (bs ";"), Some (bs "semicolon"), Some (bs ":")) (* 39 *);
  (Some (bs "'"), Some (bs "apostrophe"), Some (bs """")) (* 40 *);
  (Some (bs "`"), Some (bs "grave"), Some (bs "~")) (* 41 *);
  (Some (bs "leftshift"), Some (bs ""), None) (* 42 *);
  (Some (bs "\"), Some (bs "backslash"), Some (bs "|")) (* 43 *);
  (Some (bs "z"), None, Some (bs "Z")) (* 44 *);
  (Some (bs "x"), None, Some (bs "X")) (* 45 *);
  (Some (bs "c"), None, Some (bs "C")) (* 46 *);
  (Some (bs "v"), None, Some (bs "V")) (* 47 *);
  (Some (bs "b"), None, Some (bs "B")) (* 48 *);
  (Some (bs "n"), None, Some (bs "N")) (* 49 *);
  (Some (bs "m"), None, Some (bs "M")) (* 50 *);
  (Some (bs ","), Some (bs "comma"), Some (bs "<")) (* 51 *);
  (Some (bs "."), Some (bs "dot"), Some (bs ">")) (* 52 *);
  (Some (bs "/"), Some (bs "slash"), Some (bs "?")) (* 53 *);
  (Some (bs "rightshift"), None, None) (* 54 *);
  (Some (bs "kpasterisk"), None, None) (* 55 *);
  (Some (bs "leftalt"), Some (bs ""), None) (* 56 *);
  (Some (bs "space"), None, None) (* 57 *);
  (Some (bs "capslock"), None, None) (* 58 *);
  (Some (bs "f1"), None, None) (* 59 *);
  (Some (bs "f2"), None, None) (* 60 *);
  (Some (bs "f3"), None, None) (* 61 *);
  (Some (bs "f4"), None, None) (* 62 *);
  (Some (bs "f5"), None, None) (* 63 *);
  (Some (bs "f6"), None, None) (* 64 *);
  (Some (bs "f7"), None, None) (* 65 *);
  (Some (bs "f8"), None, None) (* 66 *);
  (Some (bs "f9"), None, None) (* 67 *);
  (Some (bs "f10"), None, None) (* 68 *);
  (Some (bs "numlock"), None, None) (* 69 *);
  (Some (bs "scrolllock"), None, None) (* 70 *);
  (Some (bs "kp7"), None, None) (* 71 *);
  (Some (bs "kp8"), None, None) (* 72 *);
  (Some (bs "kp9"), None, None) (* 73 *);
  (Some (bs "kpminus"), None, None) (* 74 *);
  (Some (bs "kp4"), None, None) (* 75 *);
  (Some (bs "kp5"), None, None) (* 76 *);
  (Some (bs "kp6"), None, None) (* 77 *);
  (Some (bs "kpplus"), None, None) (* 78 *);
  (Some (bs "kp1"), None, None) (* 79 *);
  (Some (bs "kp2"), None, None) (* 80 *);
  (Some (bs "kp3"), None, None) (* 81 *);
  (Some (bs "kp0"), None, None) (* 82 *);
  (Some (bs "kpdot"), None, None) (* 83 *);
  (Some (bs "iso-level3-shift"), None, None) (* 84 *);
  (Some (bs "zenkakuhankaku"), None, None) (* 85 *);
  (Some (bs "102nd"), None, None) (* 86 *);
  (Some (bs "f11"), None, None) (* 87 *);
  (Some (bs "f12"), None, None) (* 88 *);
  (Some (bs "ro"), None, None) (* 89 *);
  (Some (bs "katakana"), None, None) (* 90 *);
  (Some (bs "hiragana"), None, None) (* 91 *);
  (Some (bs "henkan"), None, None) (* 92 *);
  (Some (bs "katakanahiragana"), None, None) (* 93 *);
  (Some (bs "muhenkan"), None, None) (* 94 *);
  (Some (bs "kpjpcomma"), None, None) (* 95 *);
  (Some (bs "kpenter"), None, None) (* 96 *);
  (Some (bs "rightcontrol"), None, None) (* 97 *);
  (Some (bs "kpslash"), None, None) (* 98 *);
  (Some (bs "sysrq"), None, None) (* 99 *);
  (Some (bs "rightalt"), None, None) (* 100 *);
  (Some (bs "linefeed"), None, None) (* 101 *);
  (Some (bs "home"), None, None) (* 102 *);
  (Some (bs "up"), None, None) (* 103 *);
  (Some (bs "pageup"), None, None) (* 104 *);
  (Some (bs "left"), None, None) (* 105 *);
  (Some (bs "right"), None, None) (* 106 *);
  (Some (bs "end"), None, None) (* 107 *);
  (Some (bs "down"), None, None) (* 108 *);
  (Some (bs "pagedown"), None, None) (* 109 *);
  (Some (bs "insert"), None, None) (* 110 *);
  (Some (bs "delete"), None, None) (* 111 *);
  (Some (bs "macro"), None, None) (* 112 *);
  (Some (bs "mute"), None, None) (* 113 *);
  (Some (bs "volumedown"), None, None) (* 114 *);
  (Some (bs "volumeup"), None, None) (* 115 *);
  (Some (bs "power"), None, None) (* 116 *);
  (Some (bs "kpequal"), None, None) (* 117 *);
  (Some (bs "kpplusminus"), None, None) (* 118 *);
  (Some (bs "pause"), None, None) (* 119 *);
  (Some (bs "scale"), None, None) (* 120 *);
  (Some (bs "kpcomma"), None, None) (* 121 *);
  (Some (bs "hangeul"), None, None) (* 122 *);
  (Some (bs "hanja"), None, None) (* 123 *);
  (Some (bs "yen"), None, None) (* 124 *);
  (Some (bs "leftmeta"), Some (bs ""), None) (* 125 *);
  (Some (bs "rightmeta"), None, None) (* 126 *);
  (Some (bs "compose"), None, None) (* 127 *);
  (Some (bs "stop"), None, None) (* 128 *);
  (Some (bs "again"), None, None) (* 129 *);
  (Some (bs "props"), None, None) (* 130 *);
  (Some (bs "undo"), None, None) (* 131 *);
  (Some (bs "front"), None, None) (* 132 *);
  (Some (bs "copy"), None, None) (* 133 *);
  (Some (bs "open"), None, None) (* 134 *);
  (Some (bs "paste"), None, None) (* 135 *);
  (Some (bs "find"), None, None) (* 136 *);
  (Some (bs "cut"), None, None) (* 137 *);
  (Some (bs "help"), None, None) (* 138 *);
  (Some (bs "menu"), None, None) (* 139 *);
  (Some (bs "calc"), None, None) (* 140 *);
  (Some (bs "setup"), None, None) (* 141 *);
  (Some (bs "sleep"), None, None) (* 142 *);
  (Some (bs "wakeup"), None, None) (* 143 *);
  (Some (bs "file"), None, None) (* 144 *);
  (Some (bs "sendfile"), None, None) (* 145 *);
  (Some (bs "deletefile"), None, None) (* 146 *);
  (Some (bs "xfer"), None, None) (* 147 *);
  (Some (bs "scrolldown"), None, None) (* 148 *);
  (Some (bs "scrollup"), None, None) (* 149 *);
  (Some (bs "www"), None, None) (* 150 *);
  (Some (bs "msdos"), None, None) (* 151 *);
  (Some (bs "coffee"), None, None) (* 152 *);
  (Some (bs "display"), None, None) (* 153 *);
  (Some (bs "cyclewindows"), None, None) (* 154 *);
  (Some (bs "mail"), None, None) (* 155 *);
  (Some (bs "bookmarks"), None, None) (* 156 *);
  (Some (bs "computer"), None, None) (* 157 *);
  (Some (bs "back"), None, None) (* 158 *);
  (Some (bs "forward"), None, None) (* 159 *);
  (Some (bs "closecd"), None, None) (* 160 *);
  (Some (bs "ejectcd"), None, None) (* 161 *);
  (Some (bs "ejectclosecd"), None, None) (* 162 *);
  (Some (bs "nextsong"), None, None) (* 163 *);
  (Some (bs "playpause"), None, None) (* 164 *);
  (Some (bs "previoussong"), None, None) (* 165 *);
  (Some (bs "stopcd"), None, None) (* 166 *);
  (Some (bs "record"), None, None) (* 167 *);
  (Some (bs "rewind"), None, None) (* 168 *);
  (Some (bs "phone"), None, None) (* 169 *);
  (Some (bs "iso"), None, None) (* 170 *);
  (Some (bs "config"), None, None) (* 171 *);
  (Some (bs "homepage"), None, None) (* 172 *);
  (Some (bs "refresh"), None, None) (* 173 *);
  (Some (bs "exit"), None, None) (* 174 *);
  (Some (bs "move"), None, None) (* 175 *);
  (Some (bs "edit"), None, None) (* 176 *);
  (Some (bs "zoom"), None, None) (* 177 *);
  (Some (bs "mouseback"), None, None) (* 178 *);
  (Some (bs "kpleftparen"), None, None) (* 179 *);
  (Some (bs "kprightparen"), None, None) (* 180 *);
  (Some (bs "new"), None, None) (* 181 *);
  (Some (bs "redo"), None, None) (* 182 *);
  (Some (bs "f13"), None, None) (* 183 *);
  (Some (bs "f14"), None, None) (* 184 *);
  (Some (bs "f15"), None, None) (* 185 *);
  (Some (bs "f16"), None, None) (* 186 *);
  (Some (bs "f17"), None, None) (* 187 *);
  (Some (bs "f18"), None, None) (* 188 *);
  (Some (bs "f19"), None, None) (* 189 *);
  (Some (bs "f20"), None, None) (* 190 *);
  (Some (bs "f21"), Some (bs "prog1"), None) (* 191 *);
  (Some (bs "f22"), Some (bs "prog2"), None) (* 192 *);
  (Some (bs "f23"), Some (bs "prog3"), None) (* 193 *);
  (Some (bs "f24"), Some (bs "prog4"), None) (* 194 *);
  (Some (bs "noop"), None, None) (* 195 *);
  no_key (* 196 *);
  no_key (* 197 *);
  no_key (* 198 *);
  no_key (* 199 *);
  (Some (bs "playcd"), None, None) (* 200 *);
  (Some (bs "pausecd"), None, None) (* 201 *);
  (Some (bs "scrollleft"), None, None) (* 202 *);
  (Some (bs "scrollright"), None, None) (* 203 *);
  (Some (bs "dashboard"), None, None) (* 204 *);
  (Some (bs "suspend"), None, None) (* 205 *);
  (Some (bs "close"), None, None) (* 206 *);
  (Some (bs "play"), None, None) (* 207 *);
  (Some (bs "fastforward"), None, None) (* 208 *);
  (Some (bs "bassboost"), None, None) (* 209 *);
  (Some (bs "print"), None, None) (* 210 *);
  (Some (bs "hp"), None, None) (* 211 *);
  (Some (bs "camera"), None, None) (* 212 *);
  (Some (bs "sound"), None, None) (* 213 *);
  (Some (bs "question"), None, None) (* 214 *);
  (Some (bs "email"), None, None) (* 215 *);
  (Some (bs "chat"), None, None) (* 216 *);
  (Some (bs "search"), None, None) (* 217 *);
  (Some (bs "connect"), None, None) (* 218 *);
  (Some (bs "finance"), None, None) (* 219 *);
  (Some (bs "sport"), None, None) (* 220 *);
  (Some (bs "shop"), None, None) (* 221 *);
  (Some (bs "voicecommand"), None, None) (* 222 *);
  (Some (bs "cancel"), None, None) (* 223 *);
  (Some (bs "brightnessdown"), None, None) (* 224 *);
  (Some (bs "brightnessup"), None, None) (* 225 *);
  (Some (bs "media"), None, None) (* 226 *);
  (Some (bs "switchvideomode"), None, None) (* 227 *);
  (Some (bs "kbdillumtoggle"), None, None) (* 228 *);
  (Some (bs "kbdillumdown"), None, None) (* 229 *);
  (Some (bs "kbdillumup"), None, None) (* 230 *);
  (Some (bs "send"), None, None) (* 231 *);
  (Some (bs "reply"), None, None) (* 232 *);
  (Some (bs "forwardmail"), None, None) (* 233 *);
  (Some (bs "save"), None, None) (* 234 *);
  (Some (bs "documents"), None, None) (* 235 *);
  (Some (bs "battery"), None, None) (* 236 *);
  (Some (bs "bluetooth"), None, None) (* 237 *);
  (Some (bs "wlan"), None, None) (* 238 *);
  (Some (bs "uwb"), None, None) (* 239 *);
  (Some (bs "unknown"), None, None) (* 240 *);
  (Some (bs "next"), None, None) (* 241 *);
  (Some (bs "prev"), None, None) (* 242 *);
  (Some (bs "cycle"), None, None) (* 243 *);
  (Some (bs "auto"), None, None) (* 244 *);
  (Some (bs "off"), None, None) (* 245 *);
  (Some (bs "wwan"), None, None) (* 246 *);
  (Some (bs "rfkill"), None, None) (* 247 *);
  (Some (bs "micmute"), None, None) (* 248 *);
  (Some (bs "leftmouse"), None, None) (* 249 *);
  (Some (bs "middlemouse"), None, None) (* 250 *);
  (Some (bs "rightmouse"), None, None) (* 251 *);
  (Some (bs "mouse1"), None, None) (* 252 *);
  (Some (bs "mouse2"), None, None) (* 253 *);
  (Some (bs "fn"), None, None) (* 254 *);
  (Some (bs "mouseforward"), None, None) (* 255 *)
].
