(** Model of the message classes of src/cpp/Communications
    (AddressedMessage.h, MessageAttributes.h, AddressedAttributedMessage.h)
    and of src/cpp/Utilities/UxAS_StringUtil.h.

    Objects are records of their member variables.  A member function takes the
    object and returns the new object and the returned [bool].  Logging is left out. *)
From Coq Require Import String Ascii List Arith Bool.
From Verif Require Import Base.
Import ListNotations.
Open Scope list_scope.


(** AddressedMessage.h:43-44, [s_addressAttributesDelimiter]. *)
Definition addrDelim : ascii := "$"%char.
(** AddressedMessage.h:50-51, [s_fieldDelimiter]. *)
Definition fieldDelim : ascii := "|"%char.

(** ** UxAS_StringUtil.h *)

(** The pieces [std::getline(ss, item, delimiter)] produces, one per successful call:
    the text up to the next delimiter (removed), and at the end of the text the rest
    if it is non-empty.  (UxAS_StringUtil.h:42; this is the C++ library's contract.)
    [acc] is the current piece in reverse order. *)
Fixpoint getlines (d : ascii) (acc : str) (s : str) : list str :=
  match s with
  | [] => match acc with [] => [] | _ => [rev acc] end
  | c :: s' => if Ascii.eqb c d then rev acc :: getlines d [] s'
               else getlines d (c :: acc) s'
  end.

(** UxAS_StringUtil.h:42-57, the loop of [split].  [None] stands for undefined
    behaviour ([tokens.back()] on an empty vector).  [count] is [emplaceCount]; it is
    a [uint32_t] in the code and does not wrap here. *)
Fixpoint split_loop (items : list str) (tokens : list str) (count max : nat) (app : bool)
  : option (list str * nat) :=
  match items with
  | [] => Some (tokens, count)
  | item :: rest =>
      let tokens' :=
        if count <? max then Some (tokens ++ [item])
        else match rev tokens with
             | [] => None
             | lst :: before => Some (rev before ++ [lst ++ item])
             end in
      match tokens' with
      | None => None
      | Some tokens' =>
          if (S count =? max) && negb app then Some (tokens', S count)
          else split_loop rest tokens' (S count) max app
      end
  end.

(** [value.find_last_of(delimiter) == value.size()-1] (UxAS_StringUtil.h:59).
    For the empty string both sides are [npos], so the test is true. *)
Definition ends_with_delim (d : ascii) (s : str) : bool :=
  match rev s with
  | [] => true
  | c :: _ => Ascii.eqb c d
  end.

(** UxAS_StringUtil.h:36-64, [StringUtil::split]. *)
Definition split (value : str) (delimiter : ascii) (max : nat) (app : bool)
  : option (list str) :=
  match split_loop (getlines delimiter [] value) [] 0 max app with
  | None => None
  | Some (tokens, count) =>
      if (count <? max) && ends_with_delim delimiter value
      then Some (tokens ++ [[]]) else Some tokens
  end.

(** [std::string::find(from, pos)] for [pos <= size()]. *)
Definition find_sub_from (p : str) (pos : nat) (s : str) : option nat :=
  match find_sub p (skipn pos s) with
  | Some n => Some (pos + n)
  | None => None
  end.

(** UxAS_StringUtil.h:66-73, the loop of [StringUtil::ReplaceAll].  [fuel] bounds the
    number of iterations; [None] means the bound was hit (the C++ loop runs on). *)
Fixpoint replaceAll_loop (fuel : nat) (from to s : str) (start_pos : nat) : option str :=
  match fuel with
  | O => None
  | S f =>
      match find_sub_from from start_pos s with
      | None => Some s
      | Some p =>
          replaceAll_loop f from to
            (firstn p s ++ to ++ skipn (p + length from) s) (p + length to)
      end
  end.

(** UxAS_StringUtil.h:66-73, [StringUtil::ReplaceAll]. *)
Definition replaceAll (fuel : nat) (s from to : str) : option str :=
  replaceAll_loop fuel from to s 0.

(** TaskManagerService.cpp:253-254: the escaping of a service's XML configuration. *)
Definition escapeXml (fuel : nat) (s : str) : option str :=
  match replaceAll fuel s (lit "<") (lit "&lt;") with
  | None => None
  | Some s1 => replaceAll fuel s1 (lit ">") (lit "&gt;")
  end.

(** ServiceManager.cpp:486-487: the unescaping.  (Line 485 first appends a newline,
    which is not part of this function.) *)
Definition unescapeXml (fuel : nat) (s : str) : option str :=
  match replaceAll fuel s (lit "&lt;") (lit "<") with
  | None => None
  | Some s1 => replaceAll fuel s1 (lit "&gt;") (lit ">")
  end.

(** ** AddressedMessage.h *)

(** AddressedMessage.h:182-185: the member variables. *)
Record addressed := mkAddressed {
  am_valid : bool;
  am_string : str;
  am_address : str;
  am_payload : str }.

(** AddressedMessage.h:73 and the member initialisers at 182-185. *)
Definition new_addressed : addressed := mkAddressed false [] [] [].

(** AddressedMessage.h:53-68, [isValidAddress]. *)
Definition isValidAddress (a : str) : bool :=
  if length a <? 1 then false
  else match find_char addrDelim a with
       | Some _ => false
       | None => true
       end.

(** [m_isValid = false; return m_isValid;] *)
Definition am_invalidate (m : addressed) : addressed * bool :=
  (mkAddressed false (am_string m) (am_address m) (am_payload m), false).

(** AddressedMessage.h:77-103, [setAddressAndPayload]. *)
Definition setAddressAndPayload (m : addressed) (address payload : str)
  : addressed * bool :=
  if negb (isValidAddress address) then am_invalidate m
  else if length payload <? 1 then am_invalidate m
  else (mkAddressed true (address ++ addrDelim :: payload) address payload, true).

(** AddressedMessage.h:37 (value 3), [s_minimumDelimitedAddressMessageStringLength]. *)
Definition minAddressedLength : nat := 3.

(** AddressedMessage.h:163-180, [parseAddressedMessageStringAndSetFields]. *)
Definition parseAddressed (m : addressed) (s : str) : addressed * bool :=
  match find_char addrDelim s with
  | Some e =>
      if e <=? length s - minAddressedLength
      then setAddressAndPayload m (substr 0 e s) (substr (e + 1) (length s - (e + 1)) s)
      else am_invalidate m
  | None => am_invalidate m
  end.

(** AddressedMessage.h:105-118, [setAddressAndPayloadFromDelimitedString]. *)
Definition setAddressAndPayloadFromDelimitedString (m : addressed) (s : str)
  : addressed * bool :=
  if minAddressedLength <=? length s then parseAddressed m s else am_invalidate m.

(** ** MessageAttributes.h *)

(** MessageAttributes.h:237-243: the member variables. *)
Record attrs := mkAttrs {
  at_valid : bool;
  at_string : str;
  at_contentType : str;
  at_descriptor : str;
  at_group : str;
  at_entity : str;
  at_service : str }.

(** MessageAttributes.h:43. *)
Definition new_attrs : attrs := mkAttrs false [] [] [] [] [] [].

Definition at_invalidate (m : attrs) : attrs * bool :=
  (mkAttrs false (at_string m) (at_contentType m) (at_descriptor m) (at_group m)
           (at_entity m) (at_service m), false).

(** MessageAttributes.h:90-94 and 121-125: the string form of the attributes. *)
Definition attrs_text (c d g e s : str) : str :=
  c ++ fieldDelim :: d ++ fieldDelim :: g ++ fieldDelim :: e ++ fieldDelim :: s.

(** MessageAttributes.h:45-98, [setAttributes]. *)
Definition setAttributes (m : attrs) (c d g e s : str) : attrs * bool :=
  if length c <? 1 then at_invalidate m
  else if length d <? 1 then at_invalidate m
  else if length e <? 1 then at_invalidate m
  else if length s <? 1 then at_invalidate m
  else (mkAttrs true (attrs_text c d g e s) c d g e s, true).

(** MessageAttributes.h:100-127, [updateSourceAttributes]. *)
Definition at_updateSource (m : attrs) (g e s : str) : attrs * bool :=
  let m1 := mkAttrs (at_valid m) (at_string m) (at_contentType m) (at_descriptor m) g e s in
  if length e <? 1 then at_invalidate m1
  else if length s <? 1 then at_invalidate m1
  else (mkAttrs (at_valid m) (attrs_text (at_contentType m) (at_descriptor m) g e s)
                (at_contentType m) (at_descriptor m) g e s, at_valid m).

(** MessageAttributes.h:37-38. *)
Definition minAttrsLength : nat := 8.

(** MessageAttributes.h:221-235, [parseMessageAttributesStringAndSetFields].
    [split] is called with its default maximum [UINT32_MAX], modelled as "more than
    there are pieces" (one more than the length of the text plus one). *)
Definition parseAttrs (m : attrs) (s : str) : attrs * bool :=
  match split s fieldDelim (S (S (length s))) false with
  | Some [c; d; g; e; v] => setAttributes m c d g e v
  | _ => at_invalidate m
  end.

(** MessageAttributes.h:129-142, [setAttributesFromDelimitedString]. *)
Definition setAttributesFromDelimitedString (m : attrs) (s : str) : attrs * bool :=
  if minAttrsLength <=? length s then parseAttrs m s else at_invalidate m.

(** ** AddressedAttributedMessage.h *)

(** AddressedAttributedMessage.h:204 plus the members inherited from AddressedMessage;
    [aam_attrs = None] is the null [unique_ptr]. *)
Record aamsg := mkAam {
  aam_valid : bool;
  aam_string : str;
  aam_address : str;
  aam_payload : str;
  aam_attrs : option attrs }.

(** AddressedAttributedMessage.h:47-48. *)
Definition new_aam : aamsg := mkAam false [] [] [] None.

Definition aam_invalidate (m : aamsg) : aamsg * bool :=
  (mkAam false (aam_string m) (aam_address m) (aam_payload m) (aam_attrs m), false).

(** AddressedAttributedMessage.h:74, 90 and 98: the string form. *)
Definition aam_text (a t p : str) : str := a ++ addrDelim :: t ++ addrDelim :: p.

(** AddressedAttributedMessage.h:50-84, [setAddressAttributesAndPayload]. *)
Definition setAam (m : aamsg) (a c d g e s p : str) : aamsg * bool :=
  if negb (isValidAddress a) then aam_invalidate m
  else if length p <? 1 then aam_invalidate m
  else
    let '(at', ok) := setAttributes new_attrs c d g e s in
    if ok then (mkAam true (aam_text a (at_string at') p) a p (Some at'), true)
    else (mkAam false (aam_string m) (aam_address m) (aam_payload m) (Some at'), false).

(** AddressedAttributedMessage.h:86-92, [updateSourceAttributes].
    [None]: null pointer dereference. *)
Definition aam_updateSource (m : aamsg) (g e s : str) : option (aamsg * bool) :=
  match aam_attrs m with
  | None => None
  | Some at0 =>
      let '(at', ok) := at_updateSource at0 g e s in
      let v := aam_valid m && ok in
      Some (mkAam v (aam_text (aam_address m) (at_string at') (aam_payload m))
                  (aam_address m) (aam_payload m) (Some at'), v)
  end.

(** AddressedAttributedMessage.h:94-100, [updateAddress].
    [None]: null pointer dereference. *)
Definition aam_updateAddress (m : aamsg) (a : str) : option (aamsg * bool) :=
  match aam_attrs m with
  | None => None
  | Some at0 =>
      Some (mkAam (aam_valid m) (aam_text a (at_string at0) (aam_payload m))
                  a (aam_payload m) (Some at0), aam_valid m)
  end.

(** AddressedAttributedMessage.h:42. *)
Definition minAamLength : nat := 11.

(** AddressedAttributedMessage.h:159-201,
    [parseAddressedAttributedMessageStringAndSetFields]. *)
Definition parseAam (m : aamsg) (s : str) : aamsg * bool :=
  match find_char addrDelim s with
  | None => aam_invalidate m
  | Some e1 =>
      if length s - minAamLength <? e1 then aam_invalidate m
      else
        match find_char_from addrDelim (e1 + 1) s with
        | None => aam_invalidate m
        | Some e2 =>
            if e2 =? length s - 1 then aam_invalidate m
            else
              let '(at', ok) :=
                setAttributesFromDelimitedString new_attrs
                  (substr (e1 + 1) (e2 - (e1 + 1)) s) in
              if ok then
                (mkAam true s (substr 0 e1 s)
                       (substr (e2 + 1) (length s - (e2 + 1)) s) (Some at'), true)
              else (mkAam false (aam_string m) (aam_address m) (aam_payload m) (Some at'),
                    false)
        end
  end.

(** AddressedAttributedMessage.h:102-115,
    [setAddressAttributesAndPayloadFromDelimitedString]. *)
Definition setAamFromDelimitedString (m : aamsg) (s : str) : aamsg * bool :=
  if minAamLength <=? length s then parseAam m s else aam_invalidate m.

(** AddressedAttributedMessage.h:123-135, [getString]. *)
Definition aam_getString (m : aamsg) : str :=
  match aam_attrs m with Some _ => aam_string m | None => [] end.

(** AddressedAttributedMessage.h:141-145, [getMessageAttributesOwnership]. *)
Definition aam_detach (m : aamsg) : aamsg * option attrs :=
  (mkAam (aam_valid m) (aam_string m) (aam_address m) (aam_payload m) None, aam_attrs m).

(** The public operations a holder of an AddressedAttributedMessage can perform
    (AddressedAttributedMessage.h:50, 86, 94, 102, 141). *)
Inductive mop :=
| OpSet (a c d g e s p : str)
| OpParse (text : str)
| OpUpdateSource (g e s : str)
| OpUpdateAddress (a : str)
| OpDetach.

(** One operation; [None] is undefined behaviour. *)
Definition mop_step (m : aamsg) (o : mop) : option aamsg :=
  match o with
  | OpSet a c d g e s p => Some (fst (setAam m a c d g e s p))
  | OpParse t => Some (fst (setAamFromDelimitedString m t))
  | OpUpdateSource g e s => option_map fst (aam_updateSource m g e s)
  | OpUpdateAddress a => option_map fst (aam_updateAddress m a)
  | OpDetach => Some (fst (aam_detach m))
  end.

(** A history of operations on a freshly constructed message. *)
Definition mop_run (l : list mop) : option aamsg :=
  fold_left (fun om o => match om with None => None | Some m => mop_step m o end)
            l (Some new_aam).
