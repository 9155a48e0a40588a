(** The grammar language of the parsers: pest 2.8 grammars (src/pest/*.pest) and the meaning pest_generator gives them.

    An expression is evaluated on the rest of the input with a stack of matched texts (PUSH and POP) and a flag
    saying whether nothing has been consumed since the start of the input (SOI).  It consumes a prefix of the rest
    and yields syntax trees, or fails.  Two further results are not results of pest: [Diverge] for a repetition
    whose body succeeds without consuming anything (pest loops forever), and [Stuck] for a call of an undefined
    rule, a POP with an empty stack (pest panics), or more nested calls than the evaluator was allowed.

    Not modelled: error messages, pest's call limit (off by default), and its grammar optimizer, which does not
    change the meaning of these grammars. *)
From Verif Require Import Base.

(** Atomicity of the parser state *)
Inductive atom := NonAtomic | Compound | Atomic.
(** Rule modifiers: none, [_], [@], [$] *)
Inductive kind := KNormal | KSilent | KAtomic | KCompound.

Inductive expr :=
| Str (s : text)            (* "..." *)
| Sat (f : N -> bool)       (* one character: ranges, ANY, ASCII_DIGIT, LETTER ... *)
| SOI
| EOI
| Call (n : string)
| Then (a b : expr)         (* one after the other, nothing skipped *)
| Alt (a b : expr)          (* a | b *)
| Opt (a : expr)            (* a? *)
| Many (a : expr)           (* repetition, nothing skipped *)
| Not (a : expr)            (* !a *)
| Push (a : expr)
| Pop
| Skip.                     (* white space and comments, outside of atomic rules *)

(** pest_generator [generate_expr]: [a ~ b] and [a*].  [generate_expr_atomic] has no skips, but its code only runs
    in states which are not [NonAtomic], where [Skip] does nothing. *)
Definition Seq (a b : expr) : expr := Then a (Then Skip b).
Definition Star (a : expr) : expr := Opt (Then a (Many (Then Skip a))).

Definition grammar := list (string * (kind * expr)).

(** A pair of pest: rule, matched text, inner pairs *)
Inductive tree := T (name : string) (s : text) (kids : list tree).

Inductive res :=
| Ok (c r : text) (k : list text) (ts : list tree)   (* consumed, rest, stack, pairs *)
| Fail
| Diverge
| Stuck.

Definition is_empty {A} (l : list A) : bool := match l with [] => true | _ => false end.
Fixpoint strip (s r : text) : option text :=
  match s, r with
  | [], r => Some r
  | c :: s, c' :: r => if (c =? c')%N then strip s r else None
  | _ :: _, [] => None
  end.

Definition parser := bool -> text -> list text -> res.
(** One after the other *)
Definition bind (x : res) (b : bool) (f : parser) : res :=
  match x with
  | Ok c r k ts =>
    match f (b && is_empty c) r k with
    | Ok c' r' k' ts' => Ok (c ++ c') r' k' (ts ++ ts')
    | y => y
    end
  | y => y
  end.
Definition opt (f : parser) : parser := fun b r k => match f b r k with Fail => Ok [] r k [] | y => y end.
Fixpoint many_n (n : nat) (f : parser) : parser := fun b r k =>
  match n with
  | O => Diverge
  | S n =>
    match f b r k with
    | Ok [] _ _ _ => Diverge
    | Ok c r' k' ts => bind (Ok c r' k' ts) b (many_n n f)
    | Fail => Ok [] r k []
    | y => y
    end
  end.
(** [ParserState::repeat]: the body consumes something, so that the length of the rest bounds the repetitions *)
Definition many (f : parser) : parser := fun b r k => many_n (S (List.length r)) f b r k.

Section Eval.
  Variable has : string -> bool.
  Variable call : string -> atom -> parser.

  (** pest_generator [generate_skip] *)
  Definition skip (at_ : atom) : parser := fun b r k =>
    match at_ with
    | NonAtomic =>
      match has "WHITESPACE", has "COMMENT" with
      | false, false => Ok [] r k []
      | true, false => many (call "WHITESPACE" NonAtomic) b r k
      | false, true => many (call "COMMENT" NonAtomic) b r k
      | true, true => bind (many (call "WHITESPACE" NonAtomic) b r k) b
          (many (fun b r k => bind (call "COMMENT" NonAtomic b r k) b (many (call "WHITESPACE" NonAtomic))))
      end
    | _ => Ok [] r k []
    end.

  (** The parser combinators of [ParserState] *)
  Fixpoint eval (at_ : atom) (e : expr) : parser := fun b r k =>
    match e with
    | Str s => match strip s r with Some r' => Ok s r' k [] | None => Fail end
    | Sat f => match r with c :: r' => if f c then Ok [c] r' k [] else Fail | [] => Fail end
    | SOI => if b then Ok [] r k [] else Fail
    | EOI => match r with
             | [] => Ok [] [] k match at_ with Atomic => [] | _ => [T "EOI" [] []] end
             | _ => Fail
             end
    | Call n => call n at_ b r k
    | Then e1 e2 => bind (eval at_ e1 b r k) b (eval at_ e2)
    | Alt e1 e2 => match eval at_ e1 b r k with Fail => eval at_ e2 b r k | y => y end
    | Opt e => opt (eval at_ e) b r k
    | Many e => many (eval at_ e) b r k
    | Not e => match eval at_ e b r k with Ok _ _ _ _ => Fail | Fail => Ok [] r k [] | y => y end
    | Push e => match eval at_ e b r k with Ok c r' k' ts => Ok c r' (c :: k') ts | y => y end
    | Pop => match k with
             | [] => Stuck
             | s :: k => match strip s r with Some r' => Ok s r' k [] | None => Fail end
             end
    | Skip => skip at_ b r k
    end.
End Eval.

(** [ParserState::rule]: no pair is recorded in an atomic state *)
Definition wrap (n : string) (at_ : atom) (x : res) : res :=
  match x with
  | Ok c r k ts => Ok c r k match at_ with Atomic => ts | _ => [T n c ts] end
  | y => y
  end.

Definition has_rule (g : grammar) (n : string) : bool := match get n g with Some _ => true | None => false end.
(** WHITESPACE and COMMENT bodies run atomically. *)
Definition implicit (n : string) : bool := eqb n "WHITESPACE"%string || eqb n "COMMENT"%string.

(** pest_generator [generate_rule]: the function of a rule, with at most [d] nested calls *)
Fixpoint run (d : nat) (g : grammar) (n : string) (at_ : atom) : parser := fun b r k =>
  match d with
  | O => Stuck
  | S d =>
    match get n g with
    | None => Stuck
    | Some (kd, e) =>
      let ev a := eval (has_rule g) (run d g) a e b r k in
      match kd with
      | KNormal => wrap n at_ (ev (if implicit n then Atomic else at_))
      | KSilent => ev (if implicit n then Atomic else at_)
      | KAtomic => wrap n at_ (ev Atomic)
      | KCompound => wrap n Compound (ev Compound)
      end
    end
  end.

(** [Parser::parse]: the pairs of the whole input, [None] for a syntax error.  The number of rules bounds the
    nesting of calls. *)
Definition parse (g : grammar) (start : string) (t : text) : res := run (S (List.length g)) g start NonAtomic true t [].
Definition parse_trees (g : grammar) (start : string) (t : text) : option (list tree) :=
  match parse g start t with Ok _ _ _ ts => Some ts | _ => None end.

(** ** Abbreviations of the grammar language *)
Definition str (s : string) : expr := Str (s2t s).
Arguments str s%string.
Definition chr (c : N) : expr := Str [c].
Definition range (lo hi : N) : expr := Sat (fun c => (lo <=? c) && (c <=? hi))%N.
Definition ANY : expr := Sat (fun _ => true).
Definition ASCII_DIGIT : expr := Sat is_digit.
Definition ASCII_ALPHA : expr := Sat is_alpha.
Definition ASCII_ALPHA_UPPER : expr := Sat is_upper.
Definition ASCII_ALPHANUMERIC : expr := Sat is_alnum.
Definition TAB : expr := chr 9.
(** "\n" | "\r\n" | "\r" *)
Definition NEWLINE : expr := Alt (chr 10) (Alt (Str [13; 10]%N) (chr 13)).
(** [e+] is [e ~ e*], [e{2}] is [e ~ e] (pest_meta's unroller) *)
Definition Plus (e : expr) : expr := Seq e (Star e).
Fixpoint seq (l : list expr) : expr := match l with [] => str "" | [e] => e | e :: l => Seq e (seq l) end.
Fixpoint alt (l : list expr) : expr := match l with [] => Not (str "") | [e] => e | e :: l => Alt e (alt l) end.
Definition until (stop : expr) : expr := Seq (Not stop) ANY.

Notation "'normal' e" := (KNormal, e) (at level 60).
Notation "'silent' e" := (KSilent, e) (at level 60).
Notation "'atomic' e" := (KAtomic, e) (at level 60).
Notation "'compound' e" := (KCompound, e) (at level 60).
Infix "~~" := Seq (at level 45, right associativity).
Infix "//" := Alt (at level 55, right associativity).
Notation "& n" := (Call n) (at level 0, n at level 0).
