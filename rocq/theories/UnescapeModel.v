(** Model of the functions that undo the escaping of a text for XML (Utilities/UxAS_XmlUtil.h:102-163).  Those that escape are in
    [LogManagerModel]. *)
From Coq Require Import List String Ascii.
From Verif Require Import Base DbLogModel LogManagerModel.
Import ListNotations.
Open Scope list_scope.

(** [std::string::rfind] of a text that is not empty, and [replace] of it: the text before the last one, the new text, the text after *)
Fixpoint replace_last_text (p new t : str) : option str :=
  match t with
  | [] => None
  | x :: t' => match replace_last_text p new t' with
               | Some r => Some (x :: r)
               | None => if is_prefix p t then Some (new ++ skipn (List.length p) t) else None
               end
  end.
(** A loop of UxAS_XmlUtil.h:105-113 and its like, [fuel] times at most: [None] if it is still going on *)
Fixpoint undo_loop (fuel : nat) (p new t : str) : option str :=
  match fuel with
  | O => None
  | S f => match replace_last_text p new t with
           | None => Some t
           | Some t' => undo_loop f p new t'
           end
  end.
(** One round for each character is enough: each makes the text shorter. *)
Definition undo (p new t : str) : option str := undo_loop (S (List.length t)) p new t.
Definition bind (o : option str) (f : str -> option str) : option str := match o with Some t => f t | None => None end.

(** UxAS_XmlUtil.h:102-123 *)
Definition unescapeXmlQuoteApostropheChars (t : str) : option str :=
  bind (undo (lit "&quot;") [dquote] t) (undo (lit "&apos;") [apostrophe]).
(** UxAS_XmlUtil.h:126-156 *)
Definition unescapeXmlAmpersandLessThanGreaterThanChars (t : str) : option str :=
  bind (undo (lit "&lt;") ["<"%char] t) (fun t1 => bind (undo (lit "&gt;") [">"%char] t1) (undo (lit "&amp;") ["&"%char])).
(** UxAS_XmlUtil.h:158-163 *)
Definition unescapeXmlChars (t : str) : option str :=
  bind (unescapeXmlQuoteApostropheChars t) unescapeXmlAmpersandLessThanGreaterThanChars.
