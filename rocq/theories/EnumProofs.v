From Coq Require Import List Bool ZArith.
From Verif Require Import EnumModel EnumSpec.
Import ListNotations.
Open Scope Z_scope.

Inductive sim (p : producer) : enum -> cursor -> Prop :=
| sim_over i fd r : sim p (mkE i None fd (Some r) false) (mkC [] false fd (Some r))
| sim_new i fd : i = None \/ i = Some Created -> sim p (mkE i None fd None false) (mkC [] false fd None)
| sim_took h l fd : p h = Yield l -> sim p (mkE (Some (Suspended h)) None fd None false) (mkC h true fd None)
| sim_look h l fd : p h = Yield l -> sim p (mkE (Some (Suspended h)) (Some l) fd None false) (mkC h false fd None).


Lemma next_sim p s c : proper p -> busy p -> sim p s c -> buffer s = None ->
  match yield_next p s with
  | (s', inl l) => (forall take k, see p c take k = (mkC (given (forward c)) take (fed (forward c)) None, k l)) /\ p (given (forward c)) = Yield l
                   /\ s' = mkE (Some (Suspended (given (forward c)))) None (fed (forward c)) None false
  | (s', inr e) => exists c', (forall take k, see p c take k = (c', e)) /\ sim p s' c' /\ plain e = e
  end.
Proof.
  intros hp hb H hbuf. unfold yield_next. destruct H as [i fd r|i fd hi|h l fd hl|h l fd hl]; cbn [stop internal buffer feed dead] in *.
  - exists (mkC [] false fd (Some r)). split; [reflexivity|]. split; [constructor|reflexivity].
  - unfold see. cbn [over forward took given fed].
    assert (E : forall f, f = Created -> resume p f 0 = (p [], match p [] with Yield _ | Raw _ => Suspended [] | _ => Terminated end)) by (intros f ->; reflexivity).
    unfold busy in hb. specialize (hp []).
    assert (R : match i with None => rewind (mkE i None fd None false) | Some _ => mkE i None fd None false end = mkE (Some Created) None fd None false)
      by (destruct hi as [->| ->]; reflexivity).
    rewrite R. cbn [internal]. cbn [resume]. destruct (p []) as [l|v|r|e]; try contradiction; cbn [internal buffer feed stop dead].
    + split; [reflexivity|]. split; reflexivity.
    + exists (mkC [] false fd None). split; [reflexivity|]. split; [constructor; left; reflexivity|reflexivity].
  - unfold see. cbn [over forward took given fed resume]. specialize (hp (h ++ [match fd with Some v => v | None => 0 end])).
    destruct (p (h ++ [match fd with Some v => v | None => 0 end])) as [l'|v|r|e]; try contradiction; cbn [internal buffer feed stop dead].
    + split; [reflexivity|]. split; reflexivity.
    + exists (mkC [] false None (Some r)). split; [reflexivity|]. split; [constructor|reflexivity].
    + exists (mkC [] false None None). split; [reflexivity|]. split; [constructor; left; reflexivity|reflexivity].
  - discriminate.
Qed.

Lemma one_peel b l : plain (peel b l) = one l.
Proof. destruct l as [|v [|w l]]; reflexivity. Qed.

Lemma taken_sim p s c k k' : proper p -> busy p -> sim p s c -> (forall l, plain (k l) = k' l) ->
  sim p (fst (taken p s k)) (fst (see p c true k')) /\ plain (snd (taken p s k)) = snd (see p c true k').
Proof.
  intros hp hb H hk. unfold taken. destruct (buffer s) as [l|] eqn:eb.
  - destruct H as [i fd r|i fd hi|h l' fd hl|h l' fd hl]; try discriminate. cbn [buffer] in eb. injection eb as ->.
    unfold see. cbn [over forward took given fed internal feed stop dead]. rewrite hl. cbn [fst snd]. split; [apply (sim_took p h l fd hl)|apply hk].
  - assert (N := next_sim p s c hp hb H eb). destruct (yield_next p s) as [s' [l|e]].
    + destruct N as [N1 [N2 ->]]. rewrite N1. cbn [fst snd]. split; [apply (sim_took p _ l _ N2)|apply hk].
    + destruct N as [c' [N1 [N2 N3]]]. rewrite N1. cbn [fst snd]. split; [exact N2|exact N3].
Qed.
Lemma looked_sim p s c k k' : proper p -> busy p -> sim p s c -> (forall l, plain (k l) = k' l) ->
  sim p (fst (looked p s k)) (fst (see p c false k')) /\ plain (snd (looked p s k)) = snd (see p c false k').
Proof.
  intros hp hb H hk. unfold looked. destruct (buffer s) as [l|] eqn:eb.
  - destruct H as [i fd r|i fd hi|h l' fd hl|h l' fd hl]; try discriminate. cbn [buffer] in eb. injection eb as ->.
    unfold see. cbn [over forward took given fed]. rewrite hl. cbn [fst snd]. split; [apply (sim_look p h l fd hl)|apply hk].
  - assert (N := next_sim p s c hp hb H eb). destruct (yield_next p s) as [s' [l|e]].
    + destruct N as [N1 [N2 ->]]. rewrite N1. cbn [fst snd internal feed stop dead]. split; [apply (sim_look p _ l _ N2)|apply hk].
    + destruct N as [c' [N1 [N2 N3]]]. rewrite N1. cbn [fst snd]. split; [exact N2|exact N3].
Qed.
Lemma sim_alive p s c : sim p s c -> dead s = false /\ feed s = fed c.
Proof. intros []; split; reflexivity. Qed.
Lemma step_sim p s c o : proper p -> busy p -> sim p s c ->
  sim p (fst (step p s o)) (fst (ruby_step p c o)) /\ plain (snd (step p s o)) = snd (ruby_step p c o).
Proof.
  intros hp hb H. unfold step. destruct (sim_alive p s c H) as [-> hf]. destruct o as [| | | | |v]; cbn [ruby_step].
  - apply taken_sim; [exact hp|exact hb|exact H|apply one_peel].
  - apply taken_sim; [exact hp|exact hb|exact H|reflexivity].
  - apply looked_sim; [exact hp|exact hb|exact H|apply one_peel].
  - apply looked_sim; [exact hp|exact hb|exact H|reflexivity].
  - cbn [fst snd]. split; [|reflexivity]. unfold rewind. cbn [internal buffer feed stop dead].
    assert (D : dead s = false) by (destruct H; reflexivity). rewrite D. apply sim_new. right; reflexivity.
  - rewrite hf. destruct (fed c) eqn:ef; [split; [exact H|reflexivity]|]. cbn [fst snd]. split; [|reflexivity].
    destruct H as [i fd r|i fd hi|h l fd hl|h l fd hl]; cbn [internal buffer stop dead given took over].
    + constructor.
    + constructor. exact hi.
    + apply (sim_took p h l _ hl).
    + apply (sim_look p h l _ hl).
Qed.
Lemma run_sim p l : proper p -> busy p -> forall s c, sim p s c -> map plain (run p s l) = ruby_run p c l.
Proof.
  intros hp hb. induction l as [|o l IH]; intros s c H; [reflexivity|]. cbn [run ruby_run].
  assert (S := step_sim p s c o hp hb H). destruct (step p s o) as [s' r]. destruct (ruby_step p c o) as [c' r'].
  cbn [fst snd] in S. destruct S as [S1 S2]. cbn [map]. rewrite S2, (IH s' c' S1). reflexivity.
Qed.
Lemma run_ok p l : proper p -> busy p -> map plain (run p init l) = ruby_run p start l.
Proof. intros hp hb. apply run_sim; [exact hp|exact hb|]. apply sim_new. left; reflexivity. Qed.

(** The state after a history *)
Fixpoint after (p : producer) (s : enum) (l : list op) : enum := match l with [] => s | o :: l => after p (fst (step p s o)) l end.
Lemma run_app p l m : forall s, run p s (l ++ m) = run p s l ++ run p (after p s l) m.
Proof.
  induction l as [|o l IH]; intros s; [reflexivity|]. cbn [app run after]. destruct (step p s o) as [s' r] eqn:e. rewrite IH. reflexivity.
Qed.
(** Looking ahead changes nothing: what is seen is what next gives, and everything later is the same. *)
Lemma peek_state p s : dead s = false ->
  match step p s Peek with
  | (s1, r1) => match step p s1 Next, step p s Next with
                | (s2, r2), (s3, r3) => plain r1 = r3 /\ (match r1 with RArr _ _ | RVal _ => s2 = s3 /\ r2 = r3 | _ => True end)
                end
  end.
Proof.
  intros hd. unfold step at 1 3. rewrite hd. unfold looked, taken. destruct (buffer s) as [l|] eqn:eb.
  - unfold step. rewrite hd. unfold taken. rewrite eb. split; [destruct l as [|v [|w l]]; reflexivity|].
    destruct (peel true l); try exact I; split; rewrite ?hd; reflexivity.
  - destruct (yield_next p s) as [s' [l|e]] eqn:ey.
    + assert (D : dead s' = false /\ buffer s' = None).
      { unfold yield_next in ey. destruct (stop s); [discriminate|]. destruct (internal s) as [f|] eqn:ei.
        - rewrite ei in ey. destruct f as [|h|]; cbn [resume] in ey.
          + destruct (p []); try discriminate. injection ey as <- _. split; [exact hd|exact eb].
          + destruct (p _); try discriminate. injection ey as <- _. split; [exact hd|exact eb].
          + discriminate.
        - cbn [rewind internal resume] in ey. destruct (p []); try discriminate. injection ey as <- _. split; [exact hd|reflexivity]. }
      destruct D as [D1 D2]. unfold step. cbn [dead]. rewrite D1. unfold taken. cbn [buffer internal feed stop dead].
      split; [destruct l as [|v [|w l]]; reflexivity|]. destruct s' as [i b f st d]. cbn [internal feed stop dead buffer] in *. subst b d.
      destruct (peel true l); try exact I; split; reflexivity.
    + destruct (step p s' Next) as [s2 r2]. split; [|destruct e; try exact I].
      * assert (P : plain e = e).
        { unfold yield_next in ey. destruct (stop s); [injection ey as _ <-; reflexivity|].
          destruct (internal (match internal s with None => rewind s | Some _ => s end)) as [f|]; [|injection ey as _ <-; reflexivity].
          destruct f as [|h|]; cbn [resume] in ey.
          - destruct (p []); try discriminate; injection ey as _ <-; reflexivity.
          - destruct (p _); try discriminate; injection ey as _ <-; reflexivity.
          - injection ey as _ <-; reflexivity. }
        exact P.
      * exfalso. unfold yield_next in ey. destruct (stop s); [discriminate|].
        destruct (internal (match internal s with None => rewind s | Some _ => s end)) as [f|]; [|discriminate].
        destruct f as [|h|]; cbn [resume] in ey; [destruct (p []); discriminate|destruct (p _); discriminate|discriminate].
      * exfalso. unfold yield_next in ey. destruct (stop s); [discriminate|].
        destruct (internal (match internal s with None => rewind s | Some _ => s end)) as [f|]; [|discriminate].
        destruct f as [|h|]; cbn [resume] in ey; [destruct (p []); discriminate|destruct (p _); discriminate|discriminate].
Qed.
(** After rewind everything starts anew. *)
Lemma fresh_same p l : run p (mkE (Some Created) None None None false) l = run p init l.
Proof.
  assert (E : forall o, snd (step p (mkE (Some Created) None None None false) o) = snd (step p init o)).
  { intros o. destruct o; reflexivity. }
  assert (F : forall fd l, run p (mkE (Some Created) None fd None false) l = run p (mkE None None fd None false) l).
  { clear. intros fd l. revert fd. induction l as [|o l IH]; intros fd; [reflexivity|].
    destruct o as [| | | | |v]; try reflexivity.
    cbn [run]. unfold step. cbn [dead feed]. destruct fd as [x|]; cbn [internal buffer stop dead]; rewrite IH; reflexivity. }
  apply F.
Qed.
Lemma rewind_ok p l m : dead (after p init l) = false -> run p init (l ++ Rewind :: m) = run p init l ++ RSelf :: run p init m.
Proof.
  intros hd. rewrite run_app. cbn [run]. unfold step. rewrite hd. unfold rewind. cbn [internal buffer feed stop dead]. rewrite hd. rewrite fresh_same. reflexivity.
Qed.

(** Witnesses *)
Definition none_yet : producer := fun _ => Return 7.
Definition pair : producer := fun h => match h with [] => Yield [1; 2] | _ => Return 0 end.
Definition raw : producer := fun h => match h with [] => Raw 5 | _ => Return 0 end.
Lemma stop_bad : run none_yet init [Feed 1; Next; Feed 2] = [RVal 0; RStop 7; RTypeErr] /\ ruby_run none_yet start [Feed 1; Next; Feed 2] = [RVal 0; RStop 7; RVal 0].
Proof. split; reflexivity. Qed.
Lemma shared_bad : run pair init [Peek; Next] = [RArr true [1; 2]; RArr false [1; 2]] /\ ruby_run pair start [Peek; Next] = [RArr false [1; 2]; RArr false [1; 2]].
Proof. split; reflexivity. Qed.
Lemma raw_bad : run raw init [Next] = [RPanic] /\ ruby_run raw start [Next] = [RVal 5].
Proof. split; reflexivity. Qed.
(** A producer that yields 1, then 2 and the answer it got, then raises if that answer was nil and returns it otherwise *)
Definition talk : producer := fun h =>
  match h with [] => Yield [1] | [a] => Yield [2; a] | [a; b] => if b =? 0 then Raise 9 else Return b | _ => Return 0 end.
