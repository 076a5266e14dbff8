(** The methods of Hash that are written in Ruby.

    Modelled: /repo/monoruby/builtins/hash.rb:161-226 (transform_keys,
    transform_keys!), 235-245 (transform_values), 267-282 (slice, except),
    402-414 (min_by), 426-445 (compact, compact!), 462-468 (rehash). A Hash
    is a list of pairs with distinct keys in order of insertion, with the store
    and fetch of DataModel; blocks are functions (they do not change the Hash).
    Keys are numbers, compared by =. Default values are not modelled. *)
From Coq Require Import ZArith List Bool.
From Verif Require Import StructModel DataModel.
Import ListNotations.
Local Open Scope Z_scope.

Definition keys (h : hash) : list Z := map fst h.
Definition mem (m : Z) (l : list Z) : bool := existsb (Z.eqb m) l.
Definition delete (h : hash) (k : Z) : hash := filter (fun e => negb (fst e =? k)) h.

(** A Hash of new keys. *)
Definition mapping := list (Z * Z).
Fixpoint look (t : mapping) (k : Z) : option Z :=
  match t with [] => None | (x, y) :: r => if x =? k then Some y else look r k end.

(** transform_keys: the three loops, hash.rb:161-198. None: no argument and
    no block, an Enumerator. *)
Definition transform_keys (t : option mapping) (blk : option (Z -> Z)) (h : hash) : option hash :=
  match t, blk with
  | Some t, Some f =>
      Some (fold_left (fun acc e => store acc (match look t (fst e) with Some y => y | None => f (fst e) end) (snd e)) h [])
  | Some t, None =>
      Some (fold_left (fun acc e => store acc (match look t (fst e) with Some y => y | None => fst e end) (snd e)) h [])
  | None, Some f => Some (fold_left (fun acc e => store acc (f (fst e)) (snd e)) h [])
  | None, None => None
  end.

(** transform_keys!, hash.rb:200-226: the Hash and the keys that were made. *)
Definition new_key (t : option mapping) (blk : option (Z -> Z)) (k : Z) : Z :=
  match t with
  | Some t => match look t k with Some y => y | None => match blk with Some f => f k | None => k end end
  | None => match blk with Some f => f k | None => k end
  end.
Fixpoint rekey (g : Z -> Z) (pairs : hash) (h : hash) (made : list Z) : hash :=
  match pairs with
  | [] => h
  | (k, v) :: r =>
      let h := if mem k made then h else delete h k in
      rekey g r (store h (g k) v) (g k :: made)
  end.
Definition transform_keys_bang (t : option mapping) (blk : option (Z -> Z)) (h : hash) : option hash :=
  match t, blk with
  | None, None => None
  | _, _ => Some (rekey (new_key t blk) h h [])
  end.

(** slice and except *)
Definition slice (h : hash) (ks : list Z) : hash :=
  fold_left (fun acc k => match fetch h k with Some v => store acc k v | None => acc end) ks [].
Definition except (h : hash) (ks : list Z) : hash := fold_left delete ks h.

(** compact, and compact! with its answer (None: nil) *)
Definition is_nil (v : val) : bool := match v with VNil => true | _ => false end.
Definition compact (h : hash) : hash :=
  fold_left (fun acc e => if is_nil (snd e) then acc else store acc (fst e) (snd e)) h [].
Definition compact_bang (h : hash) : option hash :=
  let drop := keys (filter (fun e => is_nil (snd e)) h) in
  match drop with [] => None | _ => Some (fold_left delete drop h) end.

(** rehash *)
Definition rehash (h : hash) : hash := fold_left (fun acc e => store acc (fst e) (snd e)) h [].

(** transform_values: the values are replaced by position. *)
Fixpoint set_at (h : hash) (i : nat) (v : val) : hash :=
  match h, i with
  | [], _ => []
  | (k, _) :: r, O => (k, v) :: r
  | e :: r, S i => e :: set_at r i v
  end.
Definition value_at (h : hash) (i : nat) : val := match nth_error h i with Some e => snd e | None => VNil end.
Definition transform_values (f : val -> val) (h : hash) : hash :=
  fold_left (fun acc i => set_at acc i (f (value_at acc i))) (seq 0 (length h)) h.

(** min_by: the block answers an Integer or nil (None). nil <=> nil is 0, nil <=> of others
    is nil, which has no <. *)
Definition spaceship (a b : option Z) : option comparison :=
  match a, b with
  | Some a, Some b => Some (Z.compare a b)
  | None, None => Some Eq
  | _, _ => None
  end.
Fixpoint min_loop (f : Z * val -> option Z) (h : hash) (entry : option (Z * val)) (best : option Z) : res (option (Z * val)) :=
  match h with
  | [] => Val entry
  | e :: r =>
      let v := f e in
      match best with
      | None => min_loop f r (Some e) v
      | Some b =>
          match spaceship v (Some b) with
          | Some Lt => min_loop f r (Some e) v
          | Some _ => min_loop f r entry best
          | None => Raise NoMethod
          end
      end
  end.
Definition min_by (f : Z * val -> option Z) (h : hash) : res (option (Z * val)) := min_loop f h None None.
