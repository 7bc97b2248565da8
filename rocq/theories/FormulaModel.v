(** Model of the textual side of task relationships: [CAlgebraBase::parseFormula]
    (src/cpp/Utilities/Algebra.cpp) and the construction of the algebra string in
    [AssignmentTreeBranchBoundBase::isInitializeAlgebra]
    (src/cpp/Services/AssignmentTreeBranchBoundBase.cpp). *)
From Coq Require Import String Ascii List Arith ZArith NArith Bool.
From Verif Require Import Base Decimal10 AlgebraModel.
Import ListNotations.
Open Scope list_scope.

(** The white space characters skipped by [strtoll]. *)
Definition is_space (c : ascii) : bool :=
  let n := N_of_ascii c in ((n =? 32) || ((9 <=? n) && (n <=? 13)))%N.

Fixpoint skip_space (s : str) : str :=
  match s with
  | [] => []
  | c :: s' => if is_space c then skip_space s' else s
  end.

(** The longest prefix of digits. *)
Fixpoint digit_prefix (s : str) : str :=
  match s with
  | [] => []
  | c :: s' => if is_digit c then c :: digit_prefix s' else []
  end.

Definition int64_max : Z := 9223372036854775807.
Definition int64_min : Z := -9223372036854775808.

(** The number at the start of a text after white space and an optional sign; [None] if
    there are no digits. *)
Definition leading_number (s : str) : option Z :=
  let s1 := skip_space s in
  let '(neg, s2) := match s1 with
                    | c :: s' => if Ascii.eqb c "-" then (true, s')
                                 else if Ascii.eqb c "+" then (false, s') else (false, s1)
                    | [] => (false, [])
                    end in
  match digit_prefix s2 with
  | [] => None
  | d => let v := Z.of_N (dec_value d) in Some (if neg then (- v)%Z else v)
  end.

(** [atoll]: no digits give 0; out of range values saturate (glibc). *)
Definition atoll (s : str) : Z :=
  match leading_number s with
  | None => 0%Z
  | Some v => Z.max int64_min (Z.min int64_max v)
  end.

(** [std::stoll]: throws without digits and out of range. *)
Definition stoll (s : str) : option Z :=
  match leading_number s with
  | None => None
  | Some v => if ((int64_min <=? v) && (v <=? int64_max))%Z then Some v else None
  end.

(** [rfind(')')]: index of the last closing parenthesis. *)
Fixpoint rfind_close (s : str) : option nat :=
  match s with
  | [] => None
  | c :: s' => match rfind_close s' with
               | Some n => Some (S n)
               | None => if Ascii.eqb c ")" then Some 0 else None
               end
  end.

(** [formula.substr(i + skip, formula.rfind(')') - i - 2)] (Algebra.cpp:354, 364, 374,
    387).  The length is computed in [size_t]: when [rfind] fails or the difference is
    negative it is larger than any text, so the rest of the text is taken.  [None]: the
    start is behind the end, [std::out_of_range] is thrown. *)
Definition strip (i skip : nat) (formula : str) : option str :=
  if length formula <? i + skip then None
  else
    Some (match rfind_close formula with
          | Some r => if i + 2 <=? r then substr (i + skip) (r - i - 2) formula
                      else skipn (i + skip) formula
          | None => skipn (i + skip) formula
          end).

(** Algebra.cpp:348-395: the first operator or 'p' in the text. *)
Fixpoint find_head (i : nat) (s : str) : option (nat * option opk) :=
  match s with
  | [] => None
  | c :: s' =>
      if Ascii.eqb c "." then Some (i, Some Seq)
      else if Ascii.eqb c "+" then Some (i, Some Alt)
      else if Ascii.eqb c "|" then Some (i, Some Par)
      else if Ascii.eqb c "p" then Some (i, None)
      else find_head (S i) s'
  end.

(** Algebra.cpp:444-455: the text up to the character at which the parentheses are
    balanced (included). *)
Fixpoint take_balanced (n : Z) (s : str) : str :=
  match s with
  | [] => []
  | c :: s' =>
      let n1 := if Ascii.eqb c "(" then (n + 1)%Z else n in
      let n2 := if Ascii.eqb c ")" then (n1 - 1)%Z else n1 in
      if (n2 =? 0)%Z then [c] else c :: take_balanced n2 s'
  end.

(** Algebra.cpp:461-465: the text up to the next ')' or ' ' (included). *)
Fixpoint take_action (s : str) : str :=
  match s with
  | [] => []
  | c :: s' => if Ascii.eqb c ")" || Ascii.eqb c " " then [c] else c :: take_action s'
  end.

(** Algebra.cpp:432-488: the texts of the operands, in order. *)
Fixpoint operands (np : Z) (s : str) : list str :=
  match s with
  | [] => []
  | c :: s' =>
      if Ascii.eqb c "+" || Ascii.eqb c "." || Ascii.eqb c "|" then
        if (np =? 0)%Z then (c :: take_balanced 0 s') :: operands np s' else operands np s'
      else if Ascii.eqb c "p" then
        if (np =? 0)%Z then (c :: take_action s') :: operands np s' else operands np s'
      else if Ascii.eqb c "(" then operands (np + 1) s'
      else if Ascii.eqb c ")" then operands (np - 1) s'
      else operands np s'
  end.

(** What parsing ends with: a tree, a null pointer (unknown id), undefined behaviour
    (a null pointer is dereferenced) or an exception. *)
Inductive pres :=
| PTree (e : expr)
| PNull
| PCrash
| PThrow.

(** Algebra.cpp:432-497: the operands are parsed and added, then the parent pointer of
    every child is set, which dereferences a null child. *)
Fixpoint collect (rs : list pres) : option (list expr) + bool :=
  match rs with
  | [] => inl (Some [])
  | PThrow :: _ => inr true
  | PCrash :: _ => inr false
  | PNull :: rs' => match collect rs' with
                    | inr b => inr b
                    | inl _ => inl None
                    end
  | PTree e :: rs' => match collect rs' with
                      | inr b => inr b
                      | inl None => inl None
                      | inl (Some es) => inl (Some (e :: es))
                      end
  end.

(** Algebra.cpp:341-505, [parseFormula].  [known] is [this->actions].  [None]: the fuel,
    which bounds the nesting, is exhausted. *)
Fixpoint parseFormula (fuel : nat) (known : list Z) (formula : str) : option pres :=
  match fuel with
  | O => None
  | S f =>
      let action text :=
        let id := atoll text in
        if existsb (Z.eqb id) known then PTree (Act id) else PNull in
      match find_head 0 formula with
      | None => Some (action formula)
      | Some (i, None) =>
          match strip i 1 formula with
          | None => Some PThrow
          | Some text => Some (action text)
          end
      | Some (i, Some o) =>
          match strip i 2 formula with
          | None => Some PThrow
          | Some body =>
              match (fix go (l : list str) : option (list pres) :=
                       match l with
                       | [] => Some []
                       | t :: l' => match parseFormula f known t, go l' with
                                    | Some r, Some rs => Some (r :: rs)
                                    | _, _ => None
                                    end
                       end) (operands 0 body) with
              | None => None
              | Some rs => match collect rs with
                           | inl (Some es) => Some (PTree (Op o es))
                           | inl None => Some PCrash
                           | inr true => Some PThrow
                           | inr false => Some PCrash
                           end
              end
          end
      end
  end.

(** Algebra.cpp:612-644, [initAlgebraString]: true with a tree, false on a null tree. *)
Definition initAlgebraString (known : list Z) (s : str) : option pres :=
  parseFormula (S (length s)) known s.

(** AssignmentTreeBranchBoundBase.cpp:296-318 (and 359-381): the position behind an id
    starting at the front of [s]: the first ' ' or ')'. *)
Definition after_id (s : str) : option nat :=
  match find_char " "%char s, find_char ")"%char s with
  | Some a, Some b => Some (if a <? b then a else b)
  | Some a, None => Some a
  | None, Some b => Some b
  | None, None => None
  end.

(** Result of rewriting a text: the text, or that a conversion or [substr] threw. *)
Inductive rres :=
| RText (s : str)
| RMissing (id : Z)
| RThrow.

(** AssignmentTreeBranchBoundBase.cpp:282-345 and 349-407: copy the text and replace every
    id behind a 'p'; [keep_p] says whether the 'p' itself is kept, [f] gives the new text
    of an id.  [stoll] is applied to a text that may extend beyond the id because the end
    position is passed as a length (320, 382); it stops at the first non-digit.  Without a
    ' ' or ')' behind the id, [substr(npos)] throws.  An unknown id (388-394) ends the loop
    after the rest of the current text is set; it makes the whole initialisation fail. *)
Fixpoint rewrite_ids (fuel : nat) (keep_p : bool) (f : Z -> option str) (s : str) (acc : str)
  : option rres :=
  match fuel with
  | O => None
  | S n =>
      match s with
      | [] => Some (RText acc)
      | _ =>
          match find_char "p"%char s with
          | None => Some (RText (acc ++ s))
          | Some i =>
              let acc1 := acc ++ firstn (if keep_p then S i else i) s in
              let rest := skipn (S i) s in
              match after_id rest with
              | None => Some RThrow
              | Some k =>
                  match stoll (firstn (S i + k) rest) with
                  | None => Some RThrow
                  | Some id =>
                      match f id with
                      | None => Some (RMissing id)
                      | Some t => rewrite_ids n keep_p f (skipn k rest) (acc1 ++ t)
                      end
                  end
              end
          end
      end
  end.

(** [std::to_string] of an [int64_t]. *)
Definition to_string_Z (z : Z) : str :=
  if (z <? 0)%Z then "-"%char :: to_string (Z.to_N (- z)) else to_string (Z.to_N z).

(** AssignmentTreeBranchBoundBase.h:182-185, [getTaskAndOptionId]; overflow is not
    modelled. *)
Definition getTaskAndOptionId (task option : Z) : Z := (task * 100000 + option)%Z.

(** AssignmentTreeBranchBoundBase.cpp:282-345: the composition string of one task with its
    option ids replaced by task-option ids. *)
Definition compositionString (task : Z) (composition : str) : option rres :=
  rewrite_ids (S (length composition)) true
    (fun o => Some (to_string_Z (getTaskAndOptionId task o))) composition [].

(** AssignmentTreeBranchBoundBase.cpp:349-407: every task id of the relationship string is
    replaced by the rewritten composition of the task. *)
Definition relationshipString (comp : Z -> option str) (relationships : str) : option rres :=
  rewrite_ids (S (length relationships)) false comp relationships [].

(** AssignmentTreeBranchBoundBase.cpp:408-427: without relationships all compositions are
    put in parallel. *)
Definition parallelString (comps : list str) : str :=
  lit "|(" ++ concat (map (fun c => c ++ lit " ") comps) ++ lit ")".

(** What [isInitializeAlgebra] makes of its texts: the algebra string, a reported failure,
    or an exception that leaves the function. *)
Inductive ares :=
| AString (s : str)
| AFail
| AThrow.

(** The rewritten compositions, [taskIdVsAlgebraString]
    (AssignmentTreeBranchBoundBase.cpp:280-345).  An empty composition gets no entry
    (341-344), neither does one whose conversion threw (329-337). *)
Definition compositions (tasks : list (Z * str)) : list (Z * option str) :=
  map (fun tc =>
         (fst tc,
          match snd tc with
          | [] => None
          | _ => match compositionString (fst tc) (snd tc) with
                 | Some (RText s) => Some s
                 | _ => None
                 end
          end)) tasks.

(** Some composition could not be converted ([isSuccess = false] at 336). *)
Definition conversion_failed (tasks : list (Z * str)) : bool :=
  existsb (fun tc => match snd tc with
                     | [] => false
                     | _ => match compositionString (fst tc) (snd tc) with
                            | Some (RText _) => false
                            | _ => true
                            end
                     end) tasks.

Fixpoint lookup_comp (l : list (Z * option str)) (id : Z) : option str :=
  match l with
  | [] => None
  | (t, c) :: l' => if (t =? id)%Z then c else lookup_comp l' id
  end.

(** AssignmentTreeBranchBoundBase.cpp:276-427, the algebra string from the tasks (id and
    composition, in the iteration order of [m_taskIdVsTaskPlanOptions]) and the task
    relationships of the request. *)
Definition algebraString (tasks : list (Z * str)) (relationships : str) : option ares :=
  let comps := compositions tasks in
  let failed := conversion_failed tasks in
  match relationships with
  | [] => if failed || existsb (fun tc => match snd tc with None => true | _ => false end) comps
          then Some AFail
          else Some (AString (parallelString
                 (map (fun tc => match snd tc with Some s => s | None => [] end) comps)))
  | _ => match relationshipString (lookup_comp comps) relationships with
         | None => None
         | Some RThrow => Some AThrow
         | Some (RMissing _) => Some AFail
         | Some (RText s) => if failed then Some AFail else Some (AString s)
         end
  end.
