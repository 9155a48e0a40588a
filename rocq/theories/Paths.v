(** Model of std::path on Unix, as used by src/prf.rs and src/adaptation/mod.rs.

    A [PathBuf] is modelled up to the equality of [Path], that is by its components: whether it starts at the root,
    and its names.  Empty components and "." are dropped; a leading "." of a relative path is dropped too (Rust keeps
    it as [CurDir]), which makes no difference for the paths the code builds, since they all start from the working
    directory or from the canonical path of the .prf file. *)
From Verif Require Import Base.
Local Open Scope string_scope.
Local Open Scope list_scope.

Record path := mkPath { rooted : bool; comps : list text }.
#[export] Instance EqDec_path : EqDec path.
Proof. intros [r c] [r' c']. destruct (eq_dec r r') as [->|]; [|right; congruence]. destruct (eq_dec c c') as [->|]; [left; reflexivity | right; congruence]. Defined.

Definition SLASH : N := 47.
(** the parts between slashes *)
Fixpoint split_slash (cur : text) (s : text) : list text :=
  match s with
  | [] => [rev cur]
  | c :: s => if (c =? SLASH)%N then rev cur :: split_slash [] s else split_slash (c :: cur) s
  end.
Definition is_name (c : text) : bool := negb (eqb c []) && negb (eqb c (s2t ".")).
(** [Path::components] *)
Definition to_path (s : text) : path :=
  mkPath match s with c :: _ => (c =? SLASH)%N | [] => false end (filter is_name (split_slash [] s)).
(** [Path::join]: an absolute path replaces *)
Definition join (p q : path) : path := if rooted q then q else mkPath (rooted p) (comps p ++ comps q).
(** [Path::parent] *)
Definition parent (p : path) : option path :=
  match comps p with [] => None | _ => Some (mkPath (rooted p) (removelast (comps p))) end.
(** [Path::file_name]: not after .. *)
Definition file_name (p : path) : option text :=
  match rev (comps p) with
  | c :: _ => if eqb c (s2t "..") then None else Some c
  | [] => None
  end.
(** [PathBuf::pop] *)
Definition pop (p : path) : path := match parent p with Some q => q | None => p end.
(** [Path::with_file_name] *)
Definition with_file_name (n : text) (p : path) : path :=
  join (match file_name p with Some _ => pop p | None => p end) (to_path n).
(** [Path::file_stem]: up to the last dot, the whole name if there is no other dot than a leading one *)
Fixpoint before_last_dot (s : text) : option text :=
  match s with
  | [] => None
  | c :: s =>
    match before_last_dot s with
    | Some r => Some (c :: r)
    | None => if (c =? 46)%N then Some [] else None
    end
  end.
Definition stem (n : text) : text := match before_last_dot n with Some [] | None => n | Some s => s end.
(** [Path::with_extension] *)
Definition with_extension (e : text) (p : path) : path :=
  match file_name p with
  | Some n => mkPath (rooted p) (removelast (comps p) ++ [stem n ++ s2t "." ++ e])
  | None => p
  end.

Definition pth (s : string) : path := to_path (s2t s).
Example to_path_ok : pth "/a//b/./c.d/" = mkPath true [s2t "a"; s2t "b"; s2t "c.d"]. Proof. reflexivity. Qed.
Example join_ok : join (pth "/a") (pth "b/../c") = pth "/a/b/../c" /\ join (pth "/a") (pth "/b") = pth "/b". Proof. split; reflexivity. Qed.
Example with_ok : with_extension (s2t "ese") (pth "/a/b.c.sct") = pth "/a/b.c.ese" /\ with_extension (s2t "ese") (pth "/a/.sct") = pth "/a/.sct.ese"
  /\ with_extension (s2t "ese") (pth "/a/..") = pth "/a/.." /\ with_file_name (s2t "isec.txt") (pth "/a/b.txt") = pth "/a/isec.txt".
Proof. repeat split; reflexivity. Qed.
