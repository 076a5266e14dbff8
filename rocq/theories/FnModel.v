(** Model of File.fnmatch.
    Source: /repo/monoruby/src/builtins/fnmatch.rs (whole file, tests excluded).

    - Index pairs (pi, si) are replaced by the remaining suffixes of the pattern
      and the name; "si == 0" is carried as a flag with the suffix.
    - [lower] is char::to_lowercase().next().
    - Loops carry fuel; [None] is running out, excluded by the theorems. *)
From Coq Require Import ZArith List Bool Arith.
From Verif Require Import FnSpec.
Import ListNotations.
Open Scope Z_scope.

Section F.
Variable lower : Z -> Z.

(** fnmatch.rs:105-111 [fold]. *)
Definition fold (cf : bool) (c : Z) : Z := if cf then lower c else c.

(** fnmatch.rs:229-242 [read_char]: the character and the rest. *)
Definition read_char (ne : bool) (p : list Z) : option (Z * list Z) :=
  match p with
  | [] => None
  | ch :: t =>
      if ch =? 93 then None
      else if (ch =? 92) && negb ne then
        match t with nx :: t' => Some (nx, t') | [] => Some (ch, t) end
      else Some (ch, t)
  end.
(** fnmatch.rs:243-266: the item loop of [match_bracket]; [c] already folded.
    Result: (matched ^ negate, rest after ']'); outer [None] = out of fuel. *)
Fixpoint items (n : nat) (ne cf negate : bool) (c : Z) (matched : bool) (p : list Z) : option (option (bool * list Z)) :=
  match n with
  | O => None
  | S n' =>
      match p with
      | [] => Some None
      | ch :: t =>
          if ch =? 93 then Some (Some (xorb matched negate, t))
          else match read_char ne p with
          | None => Some None
          | Some (lo, p1) =>
              match p1 with
              | d :: ((nx :: _) as p2) =>
                  if (d =? 45) && negb (nx =? 93) then
                    match read_char ne p2 with
                    | None => Some None
                    | Some (hi, p3) =>
                        items n' ne cf negate c (matched || ((fold cf lo <=? c) && (c <=? fold cf hi))) p3
                    end
                  else items n' ne cf negate c (matched || (fold cf lo =? c)) p1
              | _ => items n' ne cf negate c (matched || (fold cf lo =? c)) p1
              end
          end
      end
  end.
(** fnmatch.rs:218-228 [match_bracket]; [p] is the pattern after '['. *)
Definition match_bracket (ne cf : bool) (p : list Z) (c : Z) : option (option (bool * list Z)) :=
  let negate := match p with x :: _ => (x =? 33) || (x =? 94) | [] => false end in
  let p := if negate then tl p else p in
  items (S (length p)) ne cf negate (fold cf c) false p.

(** fnmatch.rs:121-123: whole pattern suffix is stars. *)
Fixpoint all_stars (p : list Z) : bool :=
  match p with [] => true | c :: t => (c =? 42) && all_stars t end.
(** fnmatch.rs:133-135: collapse consecutive stars. *)
Fixpoint skip_stars (p : list Z) : list Z :=
  match p with c :: t => if c =? 42 then skip_stars t else p | [] => [] end.

(** fnmatch.rs:113-212 [match_segment_chars].  [z] = at index 0 of the name;
    [star] = (pattern after the last star, name suffix there, at index 0?). *)
Fixpoint seg_loop (n : nat) (fl : flags) (p s : list Z) (z : bool) (star : option (list Z * list Z * bool)) : option bool :=
  match n with
  | O => None
  | S n' =>
      match s with
      | [] => Some (all_stars p)
      | ch :: s' =>
          let guarded (z : bool) (c : Z) := negb (f_dotmatch fl) && z && (c =? 46) in
          let back :=
            match star with
            | Some (sp, sc :: ss, sz) =>
                if guarded sz sc then Some false
                else seg_loop n' fl sp ss false (Some (sp, ss, false))
            | _ => Some false
            end in
          match p with
          | [] => back
          | c :: t =>
              if c =? 42 then seg_loop n' fl (skip_stars t) s z (Some (skip_stars t, s, z))
              else if c =? 63 then
                if guarded z ch then back else seg_loop n' fl t s' false star
              else if c =? 91 then
                if guarded z ch then back
                else match match_bracket (f_noescape fl) (f_casefold fl) t ch with
                     | None => None
                     | Some (Some (true, rest)) => seg_loop n' fl rest s' false star
                     | _ => back
                     end
              else
                let (c1, t1) := if (c =? 92) && negb (f_noescape fl) then
                                  match t with x :: t' => (x, t') | [] => (c, t) end
                                else (c, t) in
                if fold (f_casefold fl) c1 =? fold (f_casefold fl) ch then seg_loop n' fl t1 s' false star else back
          end
      end
  end.
Definition seg_fuel (p s : list Z) : nat := S ((2 + length s) * S (length p)).
Definition match_segment (fl : flags) (p s : list Z) : option bool := seg_loop (seg_fuel p s) fl p s true None.

Fixpoint chars_eq (a b : list Z) : bool :=
  match a, b with [], [] => true | x :: s, y :: t => (x =? y) && chars_eq s t | _, _ => false end.

Definition oor (a : option bool) (b : option bool) : option bool :=
  match a with None => None | Some true => Some true | Some false => b end.
(** fnmatch.rs:62-95 [match_segments]. *)
Fixpoint match_segments (fl : flags) (pats strs : list (list Z)) : option bool :=
  match pats with
  | [] => Some (match strs with [] => true | _ => false end)
  | first :: rest =>
      if chars_eq first [42; 42] && negb (match rest with [] => true | _ => false end) then
        (fix skip (strs : list (list Z)) : option bool :=
           oor (match_segments fl rest strs)
             match strs with
             | [] => Some false
             | s :: ss =>
                 if (match s with c :: _ => c =? 46 | [] => false end) && negb (f_dotmatch fl) then Some false else skip ss
             end) strs
      else match strs with
           | [] => Some false
           | s :: ss => match match_segment fl first s with
                        | Some true => match_segments fl rest ss
                        | r => r
                        end
           end
  end.

(** fnmatch.rs:48-59 [fnmatch_no_extglob]. *)
Definition fnmatch1 (fl : flags) (p s : list Z) : option bool :=
  if f_pathname fl then match_segments fl (split_slash p) (split_slash s)
  else match_segment fl p s.

(** fnmatch.rs:311-344 [split_top_level_commas]; [cur] reversed. *)
Fixpoint split_commas (ne : bool) (depth : nat) (cur : list Z) (p : list Z) : list (list Z) :=
  match p with
  | [] => [rev cur]
  | c :: t =>
      match (if (c =? 92) && negb ne then t else []) with
      | x :: _ => match t with
                  | y :: t' => split_commas ne depth (y :: c :: cur) t'
                  | [] => []
                  end
      | [] =>
          if c =? 123 then split_commas ne (S depth) (c :: cur) t
          else if c =? 125 then split_commas ne (pred depth) (c :: cur) t
          else if (c =? 44) && (depth =? 0)%nat then rev cur :: split_commas ne depth [] t
          else split_commas ne depth (c :: cur) t
      end
  end.
(** fnmatch.rs:270-305: the scan for the first group.  [pre] reversed text before
    [p]; [inside] the reversed text since the opening brace, when one is open.
    Result: (text before the group, inside, after). *)
Fixpoint find_group (ne : bool) (depth : nat) (pre : list Z) (open : option (list Z)) (p : list Z) : option (list Z * list Z * list Z) :=
  match p with
  | [] => None
  | c :: t =>
      match (if (c =? 92) && negb ne then t else []) with
      | _ :: _ =>
          match t with
          | y :: t' => match open with
                       | Some i => find_group ne depth pre (Some (y :: c :: i)) t'
                       | None => find_group ne depth (y :: c :: pre) None t'
                       end
          | [] => None
          end
      | [] =>
          if c =? 123 then
            match depth with
            | O => (* open = Some(i): a new group starts here *)
                match open with
                | Some i => None   (* cannot happen: depth 0 with a group open returns at '}' *)
                | None => find_group ne 1 pre (Some []) t
                end
            | S _ => match open with
                     | Some i => find_group ne (S depth) pre (Some (c :: i)) t
                     | None => None
                     end
            end
          else if c =? 125 then
            match pred depth with
            | O => match open with
                   | Some i => Some (rev pre, rev i, t)
                   | None => None
                   end
            | d => match open with
                   | Some i => find_group ne d pre (Some (c :: i)) t
                   | None => None
                   end
            end
          else match open with
               | Some i => find_group ne depth pre (Some (c :: i)) t
               | None => find_group ne depth (c :: pre) None t
               end
      end
  end.
Fixpoint concat_opt {X} (l : list (option (list X))) : option (list X) :=
  match l with
  | [] => Some []
  | None :: _ => None
  | Some a :: t => match concat_opt t with None => None | Some b => Some (a ++ b) end
  end.
(** fnmatch.rs:262-308 [expand_braces]. *)
Fixpoint expand_braces (n : nat) (ne : bool) (p : list Z) : option (list (list Z)) :=
  match n with
  | O => None
  | S n' =>
      match find_group ne 0 [] None p with
      | None => Some [p]
      | Some (pre, inside, suf) =>
          concat_opt (map (fun alt => expand_braces n' ne (pre ++ alt ++ suf)) (split_commas ne 0 [] inside))
      end
  end.

Fixpoint any_opt (l : list (option bool)) : option bool :=
  match l with [] => Some false | a :: t => oor a (any_opt t) end.
(** fnmatch.rs:38-46 [fnmatch]. *)
Definition fnmatch (fl : flags) (p s : list Z) : option bool :=
  if f_extglob fl then
    match expand_braces (S (length p)) (f_noescape fl) p with
    | None => None
    | Some ps => any_opt (map (fun q => fnmatch1 fl q s) ps)
    end
  else fnmatch1 fl p s.
End F.
