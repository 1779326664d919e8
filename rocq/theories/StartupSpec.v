(** What importing the package should do. *)
From Coq Require Import String Ascii List ZArith Bool.
From Verif Require Import StartupModel.
Import ListNotations.
Local Open Scope list_scope.

(** ** Whole numbers as Python reads them *)
Definition value_of_digit (c : ascii) (d : Z) : Prop := (0 <= d <= 9)%Z /\ c = ascii_of_nat (48 + Z.to_nat d).
Definition white (c : ascii) : Prop := In (nat_of_ascii c) [9; 10; 11; 12; 13; 32].
Inductive numeral : list ascii -> Z -> Prop :=
| numeral_one c d : value_of_digit c d -> numeral [c] d
| numeral_more l n c d : numeral l n -> value_of_digit c d -> numeral (l ++ [c]) (10 * n + d)
| numeral_underscore l n c d : numeral l n -> value_of_digit c d -> numeral (l ++ ["_"%char; c]) (10 * n + d).
Definition integer (s : string) (z : Z) : Prop :=
  exists before sign l after n, list_ascii_of_string s = before ++ sign ++ l ++ after /\ Forall white before /\ Forall white after /\ numeral l n /\
    ((sign = [] /\ z = n) \/ (sign = ["+"%char] /\ z = n) \/ (sign = ["-"%char] /\ z = (- n)%Z)).

(** ** Kinds of messages, from the most to the least severe, with logging's numbers *)
Definition kinds : list nat := [40; 30; 20; 10].

(** ** Precedence of versions (semver.org, item 11) *)
(** Lexicographic order of lists: equal up to some place, where the first ends or is smaller. *)
Definition lex {A} (same before : A -> A -> Prop) (a b : list A) : Prop :=
  exists p q r, Forall2 same p q /\ ((a = p /\ exists y, b = q ++ y :: r) \/ (exists x y r', a = p ++ x :: r' /\ b = q ++ y :: r /\ before x y)).
Definition text_before (a b : string) : Prop :=
  lex eq (fun x y => nat_of_ascii x < nat_of_ascii y) (list_ascii_of_string a) (list_ascii_of_string b).
(** an identifier of digits only, and its value *)
Definition numeric (s : string) (n : Z) : Prop :=
  s <> EmptyString /\ Forall (fun c => exists d, value_of_digit c d) (list_ascii_of_string s) /\
  exists ds, Forall2 value_of_digit (list_ascii_of_string s) ds /\ n = fold_left (fun a d => 10 * a + d)%Z ds 0%Z.
Definition id_same (a b : string) : Prop := a = b \/ exists n, numeric a n /\ numeric b n.
Definition id_before (a b : string) : Prop :=
  (exists m n, numeric a m /\ numeric b n /\ (m < n)%Z) \/
  ((exists m, numeric a m) /\ ~ (exists n, numeric b n)) \/
  (~ (exists m, numeric a m) /\ ~ (exists n, numeric b n) /\ text_before a b).
Definition core (v : version) : list Z := [major v; minor v; patch v].
Definition precedes (v w : version) : Prop :=
  lex eq Z.lt (core v) (core w) \/
  (core v = core w /\ ((pre v <> [] /\ pre w = []) \/ (pre v <> [] /\ pre w <> [] /\ lex id_same id_before (pre v) (pre w)))).

(** ** Texts of versions (semver.org, items 2, 9 and 10) *)
Definition alphabet : list ascii := list_ascii_of_string "0123456789abcdefghijklmnopqrstuvwxyzABCDEFGHIJKLMNOPQRSTUVWXYZ-".
Definition no_leading_zero (l : list ascii) : Prop := forall t, l = "0"%char :: t -> t = [].
Definition numeral_of (l : list ascii) (n : Z) : Prop := numeric (string_of_list_ascii l) n /\ no_leading_zero l.
Definition is_identifier (l : list ascii) : Prop := l <> [] /\ Forall (fun c => In c alphabet) l.
Definition is_prerelease (l : list ascii) : Prop := is_identifier l /\ ((exists n, numeric (string_of_list_ascii l) n) -> no_leading_zero l).
Fixpoint dotted (ps : list (list ascii)) : list ascii := match ps with [] => [] | [p] => p | p :: r => p ++ "."%char :: dotted r end.
(** an optional part: nothing, or a mark followed by identifiers with dots between them *)
Definition optional_part (mark : ascii) (good : list ascii -> Prop) (l : list ascii) (ids : list string) : Prop :=
  (l = [] /\ ids = []) \/ (exists ps, ps <> [] /\ l = mark :: dotted ps /\ Forall good ps /\ ids = map string_of_list_ascii ps).
Definition spells (s : string) (v : version) : Prop :=
  exists x y z p b, list_ascii_of_string s = x ++ "."%char :: y ++ "."%char :: z ++ p ++ b /\
    numeral_of x (major v) /\ numeral_of y (minor v) /\ numeral_of z (patch v) /\
    optional_part "-" is_prerelease p (pre v) /\ optional_part "+" is_identifier b (build v).

(** An answer of PyPI that names a latest version and the Python versions it supports. *)
Definition says (j : json) (latest : json) (requires : string) : Prop :=
  exists o i, j = JObj o /\ jget o "info" = Some (JObj i) /\ jget i "version" = Some latest /\ jget i "requires_python" = Some (JStr requires).

(** the values Python counts as false *)
Definition empty_answers : list json := [JNull; JBool false; JNum 0; JStr ""; JArr []; JObj []].

(** ** Equality up to upper and lower case of ASCII letters *)
Definition off_spellings : list string := ["OFF"; "OFf"; "OfF"; "Off"; "oFF"; "oFf"; "ofF"; "off"]%string.
