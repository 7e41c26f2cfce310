(** Gettext_Model.v -- model of the translation of messages (microgettext/microgettext.c, the library that picobat uses on all systems).
    Running out of memory is left out, and so is a file that changes while it is read. *)

From Verif Require Import Base.

(** ** Numbers.  [int] has 32 bits, least byte first, and [size_t] 64. *)
Definition two_64 : Z := (2 ^ 64)%Z.
Definition INT_MAX : Z := (2 ^ 31 - 1)%Z.
(** The byte at [o]; outside the buffer is undefined. *)
Definition byte (f : cstr) (o : Z) : outcome ascii :=
  if (o <? 0)%Z then Undef else match nth_error f (Z.to_nat o) with Some c => Ret c | None => Undef end.
Definition int_at (f : cstr) (o : Z) : outcome Z :=
  do a <- byte f o; do b <- byte f (o + 1); do c <- byte f (o + 2); do d <- byte f (o + 3);
  let w := (code a + 256 * (code b + 256 * (code c + 256 * code d)))%Z in
  Ret (if (INT_MAX <? w)%Z then (w - 2 ^ 32)%Z else w).

(** ** Catalogues *)
(** microgettext.c:269-270 [microgettext_check_bounds] for bytes *)
Definition out_of_bounds (len index : Z) : bool := (len <? (index + 1) mod two_64)%Z.
(** 338-363 [microgettext_make_array]: the offsets of the strings, or -1.  [array] has room for [len] pointers (394). *)
Fixpoint fill (fuel : nat) (f : cstr) (nitems offset i : Z) : outcome (option (list Z)) :=
  match fuel with
  | O => OutOfFuel
  | S fuel =>
      if (i <? nitems)%Z then
        do x <- int_at f (offset + 4 * (2 * i + 1));
        if (x =? INT_MAX)%Z then Undef
        else if out_of_bounds (Z.of_nat (length f)) x then Ret None
        else if (i <? Z.of_nat (length f))%Z then
          do l <- fill fuel f nitems offset (i + 1);
          Ret (option_map (cons x) l)
        else Undef
      else Ret (Some [])
  end.
Definition microgettext_make_array (f : cstr) (nitems offset : Z) : outcome (option (list Z)) :=
  if out_of_bounds (Z.of_nat (length f)) (offset + 2 * nitems * 4) then Ret None
  else fill (length f + 2) f nitems offset 0.
(** 368-417 [microgettext_load_mofile], with the content of the file: offsets of the strings and of the translations *)
Definition magic (w : Z) : bool := let u := (w mod 2 ^ 32)%Z in (u =? 2500072158)%Z || (u =? 3725722773)%Z.
Definition microgettext_load_mofile (f : cstr) : outcome (option (list Z * list Z)) :=
  do bad <- (if (Z.of_nat (length f) <? 4 * (4 + 1))%Z then do m <- int_at f 0; Ret (negb (magic m)) else Ret false);
  if bad then Ret None
  else
    do n <- int_at f 8; do o <- int_at f 12; do t <- int_at f 16;
    let nb := (n mod two_64)%Z in
    do s <- microgettext_make_array f nb o;
    match s with
    | None => Ret None
    | Some s =>
        do t <- microgettext_make_array f nb t;
        match t with None => Ret None | Some t => Ret (Some (s, t)) end
    end.
(** strcmp of a text with the one at [o] in the buffer *)
Fixpoint strcmp_at (f msg : cstr) (o : Z) : outcome comparison :=
  do b <- byte f o;
  match msg with
  | [] => Ret (0 ?= code b)%Z
  | c :: r => if ceq c b then strcmp_at f r (o + 1) else Ret (code c ?= code b)%Z
  end.
(** The text at [o] *)
Fixpoint upto_nul (s : cstr) : outcome cstr :=
  match s with
  | [] => Undef
  | c :: r => if ceq c "000"%char then Ret [] else do t <- upto_nul r; Ret (c :: t)
  end.
Definition text (f : cstr) (o : Z) : outcome cstr := if (o <? 0)%Z then Undef else upto_nul (skipn (Z.to_nat o) f).
(** bsearch (of the C library of Linux), and 428-439 [microgettext_get_index]; [cmp] compares the key with an element *)
Fixpoint bsearch (fuel : nat) (cmp : nat -> outcome comparison) (l u : nat) : outcome (option nat) :=
  match fuel with
  | O => OutOfFuel
  | S fuel =>
      if l <? u then
        let i := (l + u) / 2 in
        do c <- cmp i;
        match c with
        | Lt => bsearch fuel cmp l i
        | Gt => bsearch fuel cmp (S i) u
        | Eq => Ret (Some i)
        end
      else Ret None
  end.
Definition element {A} (l : list A) (i : nat) : outcome A := match nth_error l i with Some x => Ret x | None => Undef end.

(** ** Languages *)
(** 71-265 [iso639] *)
Local Open Scope string_scope.
Definition iso639 : list (string * string) :=
  [("ab","abkhazian"); ("aa","afar"); ("af","afrikaans"); ("ak","akan"); ("sq","albanian"); ("am","amharic"); ("ar","arabic"); ("an","aragonese"); 
   ("hy","armenian"); ("as","assamese"); ("av","avaric"); ("ae","avestan"); ("ay","aymara"); ("az","azerbaijani"); ("bm","bambara"); ("ba","bashkir"); 
   ("eu","basque"); ("eu","basque"); ("be","belarusian"); ("bn","bengali"); ("bh","bihari"); ("bi","bislama"); ("nb","bokmal"); ("bs","bosnian"); 
   ("br","breton"); ("bg","bulgarian"); ("my","burmese"); ("ca","catalan"); ("km","central"); ("ch","chamorro"); ("ce","chechen"); ("ny","chichewa"); 
   ("zh","chinese"); ("cu","church"); ("cv","chuvash"); ("kw","cornish"); ("co","corsican"); ("cr","cree"); ("hr","croatian"); ("cs","czech"); 
   ("cs","czech"); ("da","danish"); ("dv","divehi"); ("nl","dutch"); ("nl","dutch;"); ("dz","dzongkha"); ("en","english"); ("eo","esperanto"); 
   ("et","estonian"); ("ee","ewe"); ("fo","faroese"); ("fj","fijian"); ("fi","finnish"); ("fr","french"); ("fr","french"); ("fy","frisian"); 
   ("ff","fulah"); ("gd","gaelic"); ("gl","galician"); ("lg","ganda"); ("ka","georgian"); ("de","german"); ("de","german"); ("el","greek"); 
   ("gn","guarani"); ("gu","gujarati"); ("ht","haitian"); ("ha","hausa"); ("he","hebrew"); ("hz","herero"); ("hi","hindi"); ("ho","hiri"); 
   ("hu","hungarian"); ("is","icelandic"); ("io","ido"); ("ig","igbo"); ("id","indonesian"); ("ia","interlingua"); ("ie","interlingue"); 
   ("iu","inuktitut"); ("ik","inupiaq"); ("ga","irish"); ("it","italian"); ("ja","japanese"); ("jv","javanese"); ("kl","kalaallisut"); ("kn","kannada"); 
   ("kr","kanuri"); ("ks","kashmiri"); ("kk","kazakh"); ("ki","kikuyu;"); ("rw","kinyarwanda"); ("ky","kirghiz"); ("kv","komi"); ("kg","kongo"); 
   ("ko","korean"); ("kj","kuanyama"); ("ku","kurdish"); ("lo","lao"); ("la","latin"); ("lv","latvian"); ("li","limburgan"); ("ln","lingala"); 
   ("lt","lithuanian"); ("lu","luba-katanga"); ("lb","luxembourgish"); ("mk","macedonian"); ("mk","macedonian"); ("mg","malagasy"); ("ms","malay"); 
   ("ms","malay"); ("ml","malayalam"); ("mt","maltese"); ("gv","manx"); ("mi","maori"); ("mr","marathi"); ("mh","marshallese"); ("mn","mongolian"); 
   ("na","nauru"); ("nv","navajo"); ("nd","ndebele"); ("ng","ndonga"); ("ne","nepali"); ("se","northern"); ("no","norwegian"); ("oc","occitan"); 
   ("oj","ojibwa"); ("or","oriya"); ("om","oromo"); ("os","ossetian;"); ("pi","pali"); ("pa","panjabi"); ("fa","persian"); ("fa","persian"); 
   ("pl","polish"); ("pt","portuguese"); ("ps","pushto"); ("qu","quechua"); ("ro","romanian"); ("rm","romansh"); ("rn","rundi"); ("ru","russian"); 
   ("sm","samoan"); ("sg","sango"); ("sa","sanskrit"); ("sc","sardinian"); ("sr","serbian"); ("sn","shona"); ("ii","sichuan"); ("sd","sindhi"); 
   ("si","sinhala"); ("sk","slovak"); ("sk","slovak"); ("sl","slovenian"); ("so","somali"); ("st","sotho"); ("es","spanish;"); ("su","sundanese"); 
   ("sw","swahili"); ("ss","swati"); ("sv","swedish"); ("tl","tagalog"); ("ty","tahitian"); ("tg","tajik"); ("ta","tamil"); ("tt","tatar"); 
   ("te","telugu"); ("th","thai"); ("bo","tibetan"); ("bo","tibetan"); ("ti","tigrinya"); ("to","tonga"); ("ts","tsonga"); ("tn","tswana"); 
   ("tr","turkish"); ("tk","turkmen"); ("tw","twi"); ("ug","uighur;"); ("uk","ukrainian"); ("ur","urdu"); ("uz","uzbek"); ("ve","venda"); 
   ("vi","vietnamese"); ("vo","volapuk"); ("wa","walloon"); ("cy","welsh"); ("cy","welsh"); ("wo","wolof"); ("xh","xhosa"); ("yi","yiddish"); 
   ("yo","yoruba"); ("za","zhuang"); ("zu","zulu")].
Local Close Scope string_scope.
Fixpoint strcmp (a b : cstr) : comparison :=
  match a, b with
  | [], [] => Eq
  | [], _ => Lt
  | _, [] => Gt
  | x :: a, y :: b => if ceq x y then strcmp a b else (code x ?= code y)%Z
  end.
Definition until_underscore (s : cstr) : cstr := match strchr s "_"%char with Some n => firstn n s | None => s end.
(** 478-503 [microgettext_get_lang] with a buffer of 100; [name] is the answer of setlocale *)
Definition microgettext_get_lang (name : cstr) : outcome cstr :=
  let loc := lower (until_underscore (firstn 99 name)) in
  do i <- bsearch (S (length iso639)) (fun i => do x <- element iso639 i; Ret (strcmp loc (s2l (snd x)))) 0 (length iso639);
  match i with
  | Some i => do x <- element iso639 i; Ret (s2l (fst x))
  | None => Ret loc
  end.

(** ** Translation *)
Inductive category := LC_ALL | LC_COLLATE | LC_CTYPE | LC_MONETARY | LC_NUMERIC | LC_TIME | LC_other.
(** 53-69 [locale_categories] and [locale_strings] *)
Definition category_name (c : category) : cstr :=
  s2l match c with
      | LC_ALL => "LC_MESSAGES" | LC_COLLATE => "LC_COLLATE" | LC_CTYPE => "LC_CTYPE" | LC_MONETARY => "LC_MONETARY"
      | LC_NUMERIC => "LC_NUMERIC" | LC_TIME => "LC_TIME" | LC_other => "LC_MESSAGES"
      end.
Record catalogue := mkC { c_file : cstr; c_strings : list Z; c_translations : list Z }.
Record gstate := mkG { g_domains : list (cstr * catalogue); g_basedirs : list (cstr * cstr); g_current : cstr }.
Fixpoint assoc {A} (k : cstr) (l : list (cstr * A)) : option A :=
  match l with [] => None | (a, x) :: r => if streqb a k then Some x else assoc k r end.
(** 511-551 [microgettext_make_domain_path].  The buffer is long enough. *)
Definition microgettext_make_domain_path (st : gstate) (locale : category -> cstr) (d : cstr) (cat : category) : outcome cstr :=
  do lang <- microgettext_get_lang (locale cat);
  let rest := lang ++ s2l "/" ++ category_name cat ++ s2l "/" ++ d ++ s2l ".mo" in
  Ret (match assoc d (g_basedirs st) with Some b => b ++ s2l "/" ++ rest | None => rest end).
(** The search in a catalogue, 598-600 *)
Definition translate (c : catalogue) (msg : cstr) : outcome cstr :=
  do i <- bsearch (S (length (c_strings c))) (fun i => do o <- element (c_strings c) i; strcmp_at (c_file c) msg o) 0 (length (c_strings c));
  match i with
  | Some i => do o <- element (c_translations c) i; text (c_file c) o
  | None => Ret msg
  end.
(** 565-614 [dcgettext]; [files] are the files that can be read, [locale] is setlocale *)
Definition dcgettext (files : cstr -> option cstr) (locale : category -> cstr) (st : gstate) (d msg : cstr) (cat : category) : outcome (cstr * gstate) :=
  do moname <- microgettext_make_domain_path st locale d cat;
  match assoc moname (g_domains st) with
  | Some c => do r <- translate c msg; Ret (r, st)
  | None =>
      match files moname with
      | None => Ret (msg, st)
      | Some f =>
          do l <- microgettext_load_mofile f;
          match l with
          | None => Ret (msg, st)
          | Some (s, t) =>
              let c := mkC f s t in
              do r <- translate c msg;
              Ret (r, mkG ((moname, c) :: g_domains st) (g_basedirs st) (g_current st))
          end
      end
  end.
(** 627-631 [gettext] *)
Definition gettext (files : cstr -> option cstr) (locale : category -> cstr) (st : gstate) (msg : cstr) : outcome (cstr * gstate) :=
  dcgettext files locale st (match g_current st with [] => s2l "C" | d => d end) msg LC_ALL.
(** 634-644 [textdomain] *)
Definition textdomain (st : gstate) (d : cstr) : gstate := mkG (g_domains st) (g_basedirs st) (firstn 127 d).
(** 646-681 [bindtextdomain] with a directory *)
Fixpoint replace (d dir : cstr) (l : list (cstr * cstr)) : list (cstr * cstr) :=
  match l with [] => [] | (a, x) :: r => if streqb a d then (a, dir) :: r else (a, x) :: replace d dir r end.
Definition bindtextdomain (st : gstate) (d dir : cstr) : gstate :=
  let b := match assoc d (g_basedirs st) with
           | Some _ => replace d dir (g_basedirs st)
           | None => (firstn 99 d, dir) :: g_basedirs st
           end in
  mkG (g_domains st) b (g_current st).
