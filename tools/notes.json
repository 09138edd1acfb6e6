{
 "C71": "'Exactly when' is proved constructively: a call that does not come back is shown not not to get stuck (no classical axiom is used), and the converse where the ctype functions accept any char."
}