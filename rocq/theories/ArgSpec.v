(** What binding arguments to parameters should do, stated without slots,
    pointers or call site tables. *)

From Coq Require Import ZArith List Bool Lia.
From Verif Require Import ArgModel.
Import ListNotations.

(** ** Positional parameters

    [args] is cut into the required, the given optional, the rest and the
    trailing required arguments; the rest only gets something once every
    optional parameter has its argument. *)
Definition cut (p : params) (args A B C D : list value) : Prop :=
  args = A ++ B ++ C ++ D /\
  length A = p_req p /\ length D = p_post p /\ (length B <= p_opt p)%nat /\
  (C <> [] -> length B = p_opt p /\ p_rest p <> None).

(** The slots: an optional parameter without argument is left to its default. *)
Definition layout (p : params) (A B C D : list value) : list cell :=
  map Val A ++ map Val B ++ repeat Unset (p_opt p - length B)
  ++ match p_rest p with Some _ => [Val (VArr C)] | None => [] end
  ++ map Val D.

(** A method refuses a wrong number of arguments; only an explicit [*rest]
    takes any number. *)
Definition accepts (p : params) (n : nat) : Prop :=
  (min_args p <= n)%nat /\ ((n <= max_args p)%nat \/ p_rest p = Some false).

(** A block is given nil for what is missing, and what is too much is dropped. *)
Definition loosen (p : params) (args : list value) : list value :=
  let args := args ++ repeat VNil (min_args p - length args) in
  if is_rest p then args else firstn (max_args p) args.

Inductive positional (p : params) (args : list value) : list cell -> Prop :=
| pos_method A B C D :
    p_block p = false -> accepts p (length args) -> cut p args A B C D ->
    positional p args (layout p A B C D)
| pos_block A B C D :
    p_block p = true -> cut p (loosen p args) A B C D ->
    positional p args (layout p A B C D).

(** The frame gets [cs] from slot 0 on and is otherwise as before. *)
Definition writes (f : frame) (cs : list cell) (f' : frame) : Prop :=
  f' = cs ++ skipn (length cs) f.

(** ** Keywords

    The keywords of a call: pairs and double splats in the order written,
    later ones winning. *)
Definition merge (kws : list kwarg) : hash :=
  fold_left (fun h k => match k with
                        | KLit n v => hput h (KSym n) v
                        | KSplat None => h
                        | KSplat (Some x) => hput_all h x
                        end) kws [].

(** Those that no keyword parameter takes. *)
Definition leftover (p : params) (h : hash) : hash :=
  filter (fun e => match fst e with KSym n => negb (declared p n) | KObj _ => true end) h.

Definition kw_cells (p : params) (h : hash) : list cell :=
  map (fun e => cell_of (hget h (KSym (fst e)))) (p_kws p).

(** [**rest] gets the others; nil stands for an empty Hash there (the callee's
    prologue replaces it). *)
Definition is_kwrest (h : hash) (c : cell) : Prop :=
  c = Val (VHash false h) \/ (h = [] /\ c = Val VNil).

Definition missing_kws (p : params) (h : hash) : list name :=
  map fst (filter (fun e => snd e && match hget h (KSym (fst e)) with
                                     | None => true | Some _ => false end) (p_kws p)).

(** [kw_result p h r]: binding the keywords [h] gives the cells [inl cs], or
    the error [inr e]. A missing keyword is reported before an unknown one. *)
Inductive kw_result (p : params) (h : hash) : list cell + err -> Prop :=
| kwr_missing : missing_kws p h <> [] -> kw_result p h (inr (EMissing (missing_kws p h)))
| kwr_unknown u :
    missing_kws p h = [] -> p_kwrest p = false -> leftover p h <> [] ->
    (forall k, In k u <-> In k (map fst (leftover p h))) ->
    kw_result p h (inr (EUnknown u))
| kwr_rest c :
    missing_kws p h = [] -> p_kwrest p = true -> is_kwrest (leftover p h) c ->
    kw_result p h (inl (kw_cells p h ++ [c]))
| kwr_plain :
    missing_kws p h = [] -> p_kwrest p = false -> leftover p h = [] ->
    kw_result p h (inl (kw_cells p h)).

(** ** The whole call *)

(** Splats are spread in place; nil spreads to nothing and any other object to
    itself. *)
Definition spread (pos : list (value * bool)) : list value :=
  flat_map (fun e => if snd e : bool then
                       match fst e with VArr l => l | VNil => [] | v => [v] end
                     else [fst e]) pos.

(** Keywords in flight: without keywords of its own, a call whose splatted
    arguments end in a flagged Hash passes that Hash as keywords; to a callee
    taking none it is an ordinary argument again, which keeps its flag only
    for a callee marked ruby2_keywords. *)
Definition flight (p : params) (has_splat : bool) (kws : list kwarg) (args : list value)
  : list value * hash :=
  match kws, has_splat, split_last args with
  | [], true, Some (head, VHash true h) =>
      if no_keyword p then (head ++ [VHash (p_r2k p) h], []) else (head, h)
  | _, _, _ => (args, merge kws)
  end.

(** A callee without keyword parameters gets the keywords as a last Hash. *)
Definition fold_keywords (p : params) (args : list value) (h : hash) : list value * hash :=
  if no_keyword p then
    (args ++ match h with [] => [] | _ => [VHash (p_r2k p) h] end, [])
  else (args, h).

(** A block with several parameters called with one argument takes that
    argument apart if it is an Array or converts to one. *)
Inductive autosplat (toary : value -> to_ary) (p : params) (args : list value)
  : list value + err -> Prop :=
| as_several : (forall v, args <> [v]) -> autosplat toary p args (inl args)
| as_not : single_arg_expand p = false -> autosplat toary p args (inl args)
| as_array l : single_arg_expand p = true -> args = [VArr l] -> autosplat toary p args (inl l)
| as_conv v r :
    single_arg_expand p = true -> args = [v] -> is_array v = false ->
    r = match toary v with TNone => inl args | TArr l => inl l | TRaise => inr EType end ->
    autosplat toary p args r.

(** [call_result toary p pos kws r]: calling [p] with the positional arguments
    [pos] and keywords [kws] gives the parameter slots [inl cs] or raises. *)
Inductive call_result (toary : value -> to_ary) (p : params)
    (pos : list (value * bool)) (kws : list kwarg) : list cell + err -> Prop :=
| cr_nokw args h :
    flight p (existsb snd pos) kws (spread pos) = (args, h) ->
    p_forbid p = true -> h <> [] -> call_result toary p pos kws (inr ENoKw)
| cr_raise e args h :
    flight p (existsb snd pos) kws (spread pos) = (args, h) ->
    (p_forbid p = true -> h = []) ->
    autosplat toary p (fst (fold_keywords p args h)) (inr e) ->
    call_result toary p pos kws (inr e)
| cr_arity args h l :
    flight p (existsb snd pos) kws (spread pos) = (args, h) ->
    (p_forbid p = true -> h = []) ->
    autosplat toary p (fst (fold_keywords p args h)) (inl l) ->
    p_block p = false -> ~ accepts p (length l) ->
    call_result toary p pos kws (inr (EArity (length l)))
| cr_keyword args h l cs e :
    flight p (existsb snd pos) kws (spread pos) = (args, h) ->
    (p_forbid p = true -> h = []) ->
    autosplat toary p (fst (fold_keywords p args h)) (inl l) ->
    positional p l cs ->
    kw_result p (snd (fold_keywords p args h)) (inr e) ->
    call_result toary p pos kws (inr e)
| cr_bound args h l cs ks :
    flight p (existsb snd pos) kws (spread pos) = (args, h) ->
    (p_forbid p = true -> h = []) ->
    autosplat toary p (fst (fold_keywords p args h)) (inl l) ->
    positional p l cs ->
    kw_result p (snd (fold_keywords p args h)) (inl ks) ->
    call_result toary p pos kws (inl (cs ++ ks)).

(** The frame, or error, agrees with such a result. *)
Definition agrees (f : frame) (r : res frame) (s : list cell + err) : Prop :=
  match s with
  | inl cs => r = Ok (cs ++ skipn (length cs) f)
  | inr e => r = Err e
  end.

(** Parameter lists that exist: keyword names are distinct, [**nil] excludes
    other keywords and has a slot, and the frame has the slots. *)
Definition params_ok (p : params) : Prop :=
  NoDup (map fst (p_kws p)) /\ (p_forbid p = true -> p_kwrest p = true /\ p_kws p = []).

Definition slots (p : params) : nat :=
  total_pos p + length (p_kws p) + (if p_kwrest p then 1 else 0).

(** Hashes have each key once. *)
Definition hash_ok (h : hash) : Prop := NoDup (map fst h).

(** All literal keywords come before all double splats. *)
Fixpoint lits_first (l : list kwarg) : Prop :=
  match l with
  | [] => True
  | KLit _ _ :: l => lits_first l
  | KSplat _ :: l => lits l = []
  end.
