(** External iteration of an Enumerator: next, next_values, peek, peek_values, rewind, feed
    (value/rvalue/enumerator.rs:176-305, value/rvalue/fiber.rs:377-397, value/rvalue/array.rs:22-30, builtins/enumerator.rs:210-240, 465-530). *)
From Coq Require Import List Bool ZArith.
Import ListNotations.
Open Scope Z_scope.

(** The producer, by what it does after its yields have given it the answers [h], in order: it yields values, hands a value
    that is no array out of its fiber with Fiber.yield, returns, or raises. Values are numbers, nil is 0. *)
Inductive event := Yield (vs : list Z) | Raw (v : Z) | Return (r : Z) | Raise (e : Z).
Definition producer := list Z -> event.
Inductive fiber := Created | Suspended (h : list Z) | Terminated.
Record enum := mkE { internal : option fiber; buffer : option (list Z); feed : option Z; stop : option Z; dead : bool }.
Definition init : enum := mkE None None None None false.
(** [shared]: the array handed out is the one in the buffer. *)
Inductive res := RArr (shared : bool) (l : list Z) | RVal (v : Z) | RStop (r : Z) | RErr (e : Z) | RTypeErr | RSelf | RPanic.
Definition peel (shared : bool) (l : list Z) : res := match l with [] => RVal 0 | [v] => RVal v | _ => RArr shared l end.
(** enum_yield_values: the event and the fiber after it. *)
Definition resume (p : producer) (f : fiber) (v : Z) : event * fiber :=
  match f with
  | Terminated => (Raise 0, Terminated)
  | _ => let h := match f with Suspended h => h ++ [v] | _ => [] end in
         let e := p h in (e, match e with Yield _ | Raw _ => Suspended h | _ => Terminated end)
  end.
(** rewind (enumerator.rs:178-183) *)
Definition rewind (s : enum) : enum := mkE (Some Created) None (feed s) None (dead s).
(** yield_next_values (enumerator.rs:254-305) *)
Definition yield_next (p : producer) (s : enum) : enum * (list Z + res) :=
  match stop s with
  | Some r => (s, inr (RStop r))
  | None =>
      let s := match internal s with None => rewind s | Some _ => s end in
      match internal s with
      | None => (s, inr RPanic)
      | Some f =>
          let '(s, v) := match f with
                         | Suspended _ => (mkE (internal s) (buffer s) None (stop s) (dead s), match feed s with Some v => v | None => 0 end)
                         | _ => (s, 0)
                         end in
          match resume p f v with
          | (Raise e, _) => (mkE None None (feed s) (stop s) (dead s), inr (RErr e))
          | (Return r, f) => (mkE (Some f) (buffer s) (feed s) (Some r) (dead s), inr (RStop r))
          | (Yield l, f) => (mkE (Some f) (buffer s) (feed s) (stop s) (dead s), inl l)
          | (Raw _, f) => (mkE (Some f) (buffer s) (feed s) (stop s) true, inr RPanic)
          end
      end
  end.
Inductive op := Next | NextValues | Peek | PeekValues | Rewind | Feed (v : Z).
Definition looked (p : producer) (s : enum) (k : list Z -> res) : enum * res :=
  match buffer s with
  | Some l => (s, k l)
  | None => match yield_next p s with
            | (s, inl l) => (mkE (internal s) (Some l) (feed s) (stop s) (dead s), k l)
            | (s, inr e) => (s, e)
            end
  end.
Definition taken (p : producer) (s : enum) (k : list Z -> res) : enum * res :=
  match buffer s with
  | Some l => (mkE (internal s) None (feed s) (stop s) (dead s), k l)
  | None => match yield_next p s with (s, inl l) => (s, k l) | (s, inr e) => (s, e) end
  end.
Definition step (p : producer) (s : enum) (o : op) : enum * res :=
  if dead s then (s, RPanic)
  else match o with
       | Next => taken p s (peel false)
       | NextValues => taken p s (RArr false)
       | Peek => looked p s (peel true)
       | PeekValues => looked p s (RArr true)
       | Rewind => let s := rewind s in (mkE (internal s) (buffer s) None (stop s) (dead s), RSelf)
       | Feed v => match feed s with Some _ => (s, RTypeErr) | None => (mkE (internal s) (buffer s) (Some v) (stop s) (dead s), RVal 0) end
       end.
Fixpoint run (p : producer) (s : enum) (l : list op) : list res :=
  match l with [] => [] | o :: l => let '(s, r) := step p s o in r :: run p s l end.
