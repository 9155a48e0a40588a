(** Specification of matching: a relational semantics of grammars, without bounds on repetitions or nesting, so
    that a derivation is a finite run of the parser (C01). *)
From Verif Require Import Base Peg.

Definition result := option (text * text * list text * list tree).

(** The rule's pair is recorded unless the state is atomic. *)
Definition record (n : string) (at_ : atom) (o : result) : result :=
  match o with
  | Some (c, r, k, ts) => Some (c, r, k, match at_ with Atomic => ts | _ => [T n c ts] end)
  | None => None
  end.
Definition body_atom (n : string) (kd : kind) (at_ : atom) : atom :=
  match kd with
  | KAtomic => Atomic
  | KCompound => Compound
  | _ => if string_dec n "WHITESPACE" then Atomic else if string_dec n "COMMENT" then Atomic else at_
  end.
Definition record_kind (n : string) (kd : kind) (at_ : atom) (o : result) : result :=
  match kd with
  | KSilent => o
  | KCompound => record n Compound o
  | _ => record n at_ o
  end.

Definition defined (g : grammar) (n : string) : Prop := In n (keys g).
(** What is skipped between the parts of a sequence *)
Inductive skipped (g : grammar) : expr -> Prop :=
| skipped_none : ~ defined g "WHITESPACE" -> ~ defined g "COMMENT" -> skipped g (Str [])
| skipped_ws : defined g "WHITESPACE" -> ~ defined g "COMMENT" -> skipped g (Many (Call "WHITESPACE"))
| skipped_comment : ~ defined g "WHITESPACE" -> defined g "COMMENT" -> skipped g (Many (Call "COMMENT"))
| skipped_both : defined g "WHITESPACE" -> defined g "COMMENT" ->
    skipped g (Then (Many (Call "WHITESPACE")) (Many (Then (Call "COMMENT") (Many (Call "WHITESPACE"))))).

(** [matches g at e start r k o]: in state [at], on the rest [r] of the input with stack [k], the expression [e]
    comes back with [o]; [start] says that [r] is the whole input. *)
Inductive matches (g : grammar) : atom -> expr -> bool -> text -> list text -> result -> Prop :=
| m_str a s b r k : matches g a (Str s) b (s ++ r) k (Some (s, r, k, []))
| m_str_not a s b r k : (forall r', r <> s ++ r') -> matches g a (Str s) b r k None
| m_sat a f b c r k : f c = true -> matches g a (Sat f) b (c :: r) k (Some ([c], r, k, []))
| m_sat_not a f b c r k : f c = false -> matches g a (Sat f) b (c :: r) k None
| m_sat_end a f b k : matches g a (Sat f) b [] k None
| m_soi a r k : matches g a SOI true r k (Some ([], r, k, []))
| m_soi_not a r k : matches g a SOI false r k None
| m_eoi a b k : matches g a EOI b [] k (record "EOI" a (Some ([], [], k, [])))
| m_eoi_not a b c r k : matches g a EOI b (c :: r) k None
| m_call a n kd e b r k o : get n g = Some (kd, e) -> matches g (body_atom n kd a) e b r k o ->
    matches g a (Call n) b r k (record_kind n kd a o)
| m_then a e1 e2 b b' r k c1 r1 k1 t1 c2 r2 k2 t2 :
    matches g a e1 b r k (Some (c1, r1, k1, t1)) -> (b' = true <-> b = true /\ c1 = []) ->
    matches g a e2 b' r1 k1 (Some (c2, r2, k2, t2)) ->
    matches g a (Then e1 e2) b r k (Some (c1 ++ c2, r2, k2, t1 ++ t2))
| m_then_not1 a e1 e2 b r k : matches g a e1 b r k None -> matches g a (Then e1 e2) b r k None
| m_then_not2 a e1 e2 b b' r k c1 r1 k1 t1 :
    matches g a e1 b r k (Some (c1, r1, k1, t1)) -> (b' = true <-> b = true /\ c1 = []) ->
    matches g a e2 b' r1 k1 None -> matches g a (Then e1 e2) b r k None
| m_alt1 a e1 e2 b r k x : matches g a e1 b r k (Some x) -> matches g a (Alt e1 e2) b r k (Some x)
| m_alt2 a e1 e2 b r k o : matches g a e1 b r k None -> matches g a e2 b r k o -> matches g a (Alt e1 e2) b r k o
| m_opt a e b r k x : matches g a e b r k (Some x) -> matches g a (Opt e) b r k (Some x)
| m_opt_not a e b r k : matches g a e b r k None -> matches g a (Opt e) b r k (Some ([], r, k, []))
| m_many_stop a e b r k : matches g a e b r k None -> matches g a (Many e) b r k (Some ([], r, k, []))
| m_many_go a e b b' r k c1 r1 k1 t1 c2 r2 k2 t2 :
    matches g a e b r k (Some (c1, r1, k1, t1)) -> (b' = true <-> b = true /\ c1 = []) ->
    matches g a (Many e) b' r1 k1 (Some (c2, r2, k2, t2)) ->
    matches g a (Many e) b r k (Some (c1 ++ c2, r2, k2, t1 ++ t2))
| m_not a e b r k : matches g a e b r k None -> matches g a (Not e) b r k (Some ([], r, k, []))
| m_not_not a e b r k x : matches g a e b r k (Some x) -> matches g a (Not e) b r k None
| m_push a e b r k c r' k' ts : matches g a e b r k (Some (c, r', k', ts)) -> matches g a (Push e) b r k (Some (c, r', c :: k', ts))
| m_push_not a e b r k : matches g a e b r k None -> matches g a (Push e) b r k None
| m_pop a s b r k : matches g a Pop b (s ++ r) (s :: k) (Some (s, r, k, []))
| m_pop_not a s b r k : (forall r', r <> s ++ r') -> matches g a Pop b r (s :: k) None
| m_skip e b r k o : skipped g e -> matches g NonAtomic e b r k o -> matches g NonAtomic Skip b r k o
| m_skip_atomic a b r k : a <> NonAtomic -> matches g a Skip b r k (Some ([], r, k, [])).

(** The pairs lie inside the matched text: side by side, in order, and so on inside each of them. *)
Inductive within : text -> list tree -> Prop :=
| within_nil gap : within gap []
| within_cons gap n s kids rest ts : within s kids -> within rest ts -> within (gap ++ s ++ rest) (T n s kids :: ts).
