(** The glob language, independently of any matching algorithm.
    Characters are code points. *)
From Coq Require Import ZArith List Bool.
Import ListNotations.
Open Scope Z_scope.

Record flags := { f_noescape : bool; f_pathname : bool; f_dotmatch : bool; f_casefold : bool; f_extglob : bool }.

(** A pattern is first read as characters marked "escaped" or not; an escaped
    character is never special. *)
Fixpoint units (noescape : bool) (p : list Z) : list (Z * bool) :=
  match p with
  | [] => []
  | c :: t =>
      if (c =? 92) && negb noescape then
        match t with [] => [(c, false)] | x :: t' => (x, true) :: units noescape t' end
      else (c, false) :: units noescape t
  end.

Inductive tok := Star | Any | Lit (c : Z) | Class (neg : bool) (items : list (Z * Z)) | Never.

Definition close (u : Z * bool) : bool := negb (snd u) && (fst u =? 93).
Definition is (c : Z) (u : Z * bool) : bool := negb (snd u) && (fst u =? c).

(** Tokens; [Some (neg, items)] while inside brackets. *)
Fixpoint toks (st : option (bool * list (Z * Z))) (u : list (Z * bool)) : list tok :=
  match st with
  | None =>
      match u with
      | [] => []
      | a :: t =>
          if is 42 a then Star :: toks None t
          else if is 63 a then Any :: toks None t
          else if is 91 a then
            match t with
            | b :: t' => if is 33 b || is 94 b then toks (Some (true, [])) t' else toks (Some (false, [])) t
            | [] => [Never]
            end
          else Lit (fst a) :: toks None t
      end
  | Some (n, its) =>
      match u with
      | [] => [Never]                                (* unterminated: matches nothing *)
      | a :: t =>
          if close a then Class n its :: toks None t
          else match t with
               | b :: ((h :: t') as t2) =>
                   if is 45 b && negb (close h) then toks (Some (n, (fst a, fst h) :: its)) t'
                   else toks (Some (n, (fst a, fst a) :: its)) t
               | _ => toks (Some (n, (fst a, fst a) :: its)) t
               end
      end
  end.

Section L.
Variable fold : Z -> Z.   (* identity, or lower-casing *)

Definition in_class (items : list (Z * Z)) (c : Z) : bool :=
  existsb (fun r => (fold (fst r) <=? fold c) && (fold c <=? fold (snd r))) items.

(** The language of a token list.  Each character of the name is marked
    "protected" (a leading period): only a literal consumes it. *)
Inductive lang : list tok -> list (Z * bool) -> Prop :=
| L_end : lang [] []
| L_star0 ts s : lang ts s -> lang (Star :: ts) s
| L_star c ts s : lang (Star :: ts) s -> lang (Star :: ts) ((c, false) :: s)
| L_any c ts s : lang ts s -> lang (Any :: ts) ((c, false) :: s)
| L_class n its c ts s : xorb n (in_class its c) = true -> lang ts s -> lang (Class n its :: ts) ((c, false) :: s)
| L_lit x c g ts s : fold x = fold c -> lang ts s -> lang (Lit x :: ts) ((c, g) :: s).
End L.

Definition protect (dotmatch : bool) (s : list Z) : list (Z * bool) :=
  match s with [] => [] | c :: t => (c, negb dotmatch && (c =? 46)) :: map (fun x => (x, false)) t end.

(** Text cut at '/'. *)
Fixpoint split_slash (s : list Z) : list (list Z) :=
  match s with
  | [] => [[]]
  | c :: t => if c =? 47 then [] :: split_slash t
              else match split_slash t with [] => [[c]] | h :: r => (c :: h) :: r end
  end.

Section P.
Variables (lower : Z -> Z) (fl : flags).
Definition folding (c : Z) : Z := if f_casefold fl then lower c else c.
Definition seg_lang (p s : list Z) : Prop := lang folding (toks None (units (f_noescape fl) p)) (protect (f_dotmatch fl) s).
Definition hidden (s : list Z) : Prop := exists t, s = 46 :: t.

(** FNM_PATHNAME: segment by segment; "**" followed by more segments stands for
    any number of segments, none of them hidden. *)
Inductive path_lang : list (list Z) -> list (list Z) -> Prop :=
| P_end : path_lang [] []
| P_seg p ps s ss : ~ (p = [42; 42] /\ ps <> []) -> seg_lang p s -> path_lang ps ss -> path_lang (p :: ps) (s :: ss)
| P_glob0 ps ss : ps <> [] -> path_lang ps ss -> path_lang ([42; 42] :: ps) ss
| P_glob ps s ss : ps <> [] -> (f_dotmatch fl = true \/ ~ hidden s) -> path_lang ([42; 42] :: ps) ss ->
    path_lang ([42; 42] :: ps) (s :: ss).

Definition in_lang (p s : list Z) : Prop :=
  if f_pathname fl then path_lang (split_slash p) (split_slash s) else seg_lang p s.
End P.

(** Brace patterns as trees, the text they stand for, and their expansions in
    order: the product, leftmost group varying slowest. *)
Inductive node := Ch (c : Z) | Esc (c : Z) | Alt (alts : list (list node)).
Fixpoint render (n : node) : list Z :=
  match n with
  | Ch c => [c]
  | Esc c => [92; c]
  | Alt alts =>
      123 :: (fix go (a : list (list node)) : list Z :=
        match a with
        | [] => []
        | [x] => flat_map render x
        | x :: t => flat_map render x ++ 44 :: go t
        end) alts ++ [125]
  end.
Definition renders (a : list node) : list Z := flat_map render a.
Definition prod (l : list (list Z)) (r : list (list Z)) : list (list Z) := flat_map (fun x => map (fun y => x ++ y) r) l.
Fixpoint expand1 (n : node) : list (list Z) :=
  match n with
  | Ch c => [[c]]
  | Esc c => [[92; c]]
  | Alt alts => flat_map (fun x => fold_right (fun m r => prod (expand1 m) r) [[]] x) alts
  end.
Definition expansions (a : list node) : list (list Z) := fold_right (fun m r => prod (expand1 m) r) [[]] a.

(** Well-formed trees: groups have at least one alternative, plain characters are
    not braces (nor commas inside a group, nor backslashes when escaping is on). *)
Fixpoint wf (noescape inside : bool) (n : node) : Prop :=
  match n with
  | Ch c => c <> 123 /\ c <> 125 /\ (inside = true -> c <> 44) /\ (noescape = false -> c <> 92)
  | Esc c => noescape = false
  | Alt alts => alts <> [] /\
      (fix go (a : list (list node)) : Prop :=
        match a with
        | [] => True
        | x :: t => (fix go2 (l : list node) : Prop := match l with [] => True | m :: r => wf noescape true m /\ go2 r end) x /\ go t
        end) alts
  end.
