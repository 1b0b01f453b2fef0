{
 "C01": {
  "status": "proved",
  "note": "The statement is proved as worded, including the defects of the code it names: each of those is itself a theorem (suffix _refuted), showing where the documented or expected behaviour fails."
 },
 "C02": {
  "status": "proved",
  "note": "The statement is proved as worded, including the defects of the code it names: each of those is itself a theorem (suffix _refuted), showing where the documented or expected behaviour fails."
 },
 "C05": {
  "status": "proved",
  "note": "The statement is proved as worded, including the defects of the code it names: each of those is itself a theorem (suffix _refuted), showing where the documented or expected behaviour fails."
 },
 "C06": {
  "status": "proved",
  "note": "The statement is proved as worded, including the defects of the code it names: each of those is itself a theorem (suffix _refuted), showing where the documented or expected behaviour fails."
 },
 "C07": {
  "status": "proved",
  "note": "The statement is proved as worded, including the defects of the code it names: each of those is itself a theorem (suffix _refuted), showing where the documented or expected behaviour fails."
 },
 "C08": {
  "status": "proved",
  "note": "The statement is proved as worded, including the defects of the code it names: each of those is itself a theorem (suffix _refuted), showing where the documented or expected behaviour fails."
 },
 "C11": {
  "status": "proved",
  "note": "The statement is proved as worded, including the defects of the code it names: each of those is itself a theorem (suffix _refuted), showing where the documented or expected behaviour fails."
 },
 "C12": {
  "status": "proved",
  "note": "The statement is proved as worded, including the defects of the code it names: each of those is itself a theorem (suffix _refuted), showing where the documented or expected behaviour fails."
 },
 "C13": {
  "status": "proved",
  "note": "The statement is proved as worded, including the defects of the code it names: each of those is itself a theorem (suffix _refuted), showing where the documented or expected behaviour fails."
 },
 "C14": {
  "status": "proved",
  "note": "The statement is proved as worded, including the defects of the code it names: each of those is itself a theorem (suffix _refuted), showing where the documented or expected behaviour fails."
 },
 "C17": {
  "status": "proved",
  "note": "The statement is proved as worded, including the defects of the code it names: each of those is itself a theorem (suffix _refuted), showing where the documented or expected behaviour fails."
 },
 "C18": {
  "status": "proved",
  "note": "The statement is proved as worded, including the defects of the code it names: each of those is itself a theorem (suffix _refuted), showing where the documented or expected behaviour fails."
 },
 "C19": {
  "status": "proved",
  "note": "The statement is proved as worded, including the defects of the code it names: each of those is itself a theorem (suffix _refuted), showing where the documented or expected behaviour fails."
 },
 "C21": {
  "status": "proved",
  "note": "The statement is proved as worded, including the defects of the code it names: each of those is itself a theorem (suffix _refuted), showing where the documented or expected behaviour fails."
 },
 "C22": {
  "status": "proved",
  "note": "The statement is proved as worded, including the defects of the code it names: each of those is itself a theorem (suffix _refuted), showing where the documented or expected behaviour fails."
 },
 "C23": {
  "status": "proved",
  "note": "The statement is proved as worded, including the defects of the code it names: each of those is itself a theorem (suffix _refuted), showing where the documented or expected behaviour fails."
 },
 "C24": {
  "status": "proved",
  "note": "The statement is proved as worded, including the defects of the code it names: each of those is itself a theorem (suffix _refuted), showing where the documented or expected behaviour fails."
 },
 "C27": {
  "status": "proved",
  "note": "The statement is proved as worded, including the defects of the code it names: each of those is itself a theorem (suffix _refuted), showing where the documented or expected behaviour fails."
 },
 "C28": {
  "status": "proved",
  "note": "The statement is proved as worded, including the defects of the code it names: each of those is itself a theorem (suffix _refuted), showing where the documented or expected behaviour fails."
 },
 "C30": {
  "status": "proved",
  "note": "The statement is proved as worded, including the defects of the code it names: each of those is itself a theorem (suffix _refuted), showing where the documented or expected behaviour fails."
 },
 "C32": {
  "status": "proved",
  "note": "The statement is proved as worded, including the defects of the code it names: each of those is itself a theorem (suffix _refuted), showing where the documented or expected behaviour fails."
 },
 "C36": {
  "status": "proved",
  "note": "The statement is proved as worded, including the defects of the code it names: each of those is itself a theorem (suffix _refuted), showing where the documented or expected behaviour fails."
 },
 "C38": {
  "status": "proved",
  "note": "The statement is proved as worded, including the defects of the code it names: each of those is itself a theorem (suffix _refuted), showing where the documented or expected behaviour fails."
 },
 "C40": {
  "status": "proved",
  "note": "The statement is proved as worded, including the defects of the code it names: each of those is itself a theorem (suffix _refuted), showing where the documented or expected behaviour fails."
 },
 "C41": {
  "status": "proved",
  "note": "The statement is proved as worded, including the defects of the code it names: each of those is itself a theorem (suffix _refuted), showing where the documented or expected behaviour fails."
 },
 "C42": {
  "status": "proved",
  "note": "The statement is proved as worded, including the defects of the code it names: each of those is itself a theorem (suffix _refuted), showing where the documented or expected behaviour fails."
 },
 "C43": {
  "status": "proved",
  "note": "The statement is proved as worded, including the defects of the code it names: each of those is itself a theorem (suffix _refuted), showing where the documented or expected behaviour fails."
 },
 "C44": {
  "status": "proved",
  "note": "The statement is proved as worded, including the defects of the code it names: each of those is itself a theorem (suffix _refuted), showing where the documented or expected behaviour fails."
 },
 "C45": {
  "status": "proved",
  "note": "The statement is proved as worded, including the defects of the code it names: each of those is itself a theorem (suffix _refuted), showing where the documented or expected behaviour fails."
 },
 "C48": {
  "status": "proved",
  "note": "The statement is proved as worded, including the defects of the code it names: each of those is itself a theorem (suffix _refuted), showing where the documented or expected behaviour fails."
 },
 "C50": {
  "status": "proved",
  "note": "The statement is proved as worded, including the defects of the code it names: each of those is itself a theorem (suffix _refuted), showing where the documented or expected behaviour fails."
 },
 "C51": {
  "status": "proved",
  "note": "The statement is proved as worded, including the defects of the code it names: each of those is itself a theorem (suffix _refuted), showing where the documented or expected behaviour fails."
 },
 "C52": {
  "status": "proved",
  "note": "The statement is proved as worded, including the defects of the code it names: each of those is itself a theorem (suffix _refuted), showing where the documented or expected behaviour fails."
 },
 "C55": {
  "status": "proved",
  "note": "The statement is proved as worded, including the defects of the code it names: each of those is itself a theorem (suffix _refuted), showing where the documented or expected behaviour fails."
 },
 "C56": {
  "status": "proved",
  "note": "The statement is proved as worded, including the defects of the code it names: each of those is itself a theorem (suffix _refuted), showing where the documented or expected behaviour fails."
 },
 "C57": {
  "status": "proved",
  "note": "The statement is proved as worded, including the defects of the code it names: each of those is itself a theorem (suffix _refuted), showing where the documented or expected behaviour fails."
 },
 "C58": {
  "status": "proved",
  "note": "The statement is proved as worded, including the defects of the code it names: each of those is itself a theorem (suffix _refuted), showing where the documented or expected behaviour fails."
 },
 "C59": {
  "status": "proved",
  "note": "The statement is proved as worded, including the defects of the code it names: each of those is itself a theorem (suffix _refuted), showing where the documented or expected behaviour fails."
 },
 "C60": {
  "status": "proved",
  "note": "The statement is proved as worded, including the defects of the code it names: each of those is itself a theorem (suffix _refuted), showing where the documented or expected behaviour fails."
 },
 "C61": {
  "status": "proved",
  "note": "The statement is proved as worded, including the defects of the code it names: each of those is itself a theorem (suffix _refuted), showing where the documented or expected behaviour fails."
 },
 "C62": {
  "status": "proved",
  "note": "The statement is proved as worded, including the defects of the code it names: each of those is itself a theorem (suffix _refuted), showing where the documented or expected behaviour fails."
 },
 "C64": {
  "status": "proved",
  "note": "The statement is proved as worded, including the defects of the code it names: each of those is itself a theorem (suffix _refuted), showing where the documented or expected behaviour fails."
 },
 "C65": {
  "status": "proved",
  "note": "The statement is proved as worded, including the defects of the code it names: each of those is itself a theorem (suffix _refuted), showing where the documented or expected behaviour fails."
 },
 "C66": {
  "status": "proved",
  "note": "The statement is proved as worded, including the defects of the code it names: each of those is itself a theorem (suffix _refuted), showing where the documented or expected behaviour fails."
 },
 "C68": {
  "status": "proved",
  "note": "The statement is proved as worded, including the defects of the code it names: each of those is itself a theorem (suffix _refuted), showing where the documented or expected behaviour fails."
 },
 "C69": {
  "status": "proved",
  "note": "The statement is proved as worded, including the defects of the code it names: each of those is itself a theorem (suffix _refuted), showing where the documented or expected behaviour fails."
 },
 "C70": {
  "status": "proved",
  "note": "The statement is proved as worded, including the defects of the code it names: each of those is itself a theorem (suffix _refuted), showing where the documented or expected behaviour fails."
 },
 "C71": {
  "status": "proved",
  "note": "The statement is proved as worded, including the defects of the code it names: each of those is itself a theorem (suffix _refuted), showing where the documented or expected behaviour fails."
 },
 "C72": {
  "status": "proved",
  "note": "The statement is proved as worded, including the defects of the code it names: each of those is itself a theorem (suffix _refuted), showing where the documented or expected behaviour fails."
 },
 "C75": {
  "status": "proved",
  "note": "The statement is proved as worded, including the defects of the code it names: each of those is itself a theorem (suffix _refuted), showing where the documented or expected behaviour fails."
 },
 "C76": {
  "status": "proved",
  "note": "The statement is proved as worded, including the defects of the code it names: each of those is itself a theorem (suffix _refuted), showing where the documented or expected behaviour fails."
 },
 "C77": {
  "status": "proved",
  "note": "The statement is proved as worded, including the defects of the code it names: each of those is itself a theorem (suffix _refuted), showing where the documented or expected behaviour fails."
 },
 "C78": {
  "status": "proved",
  "note": "The statement is proved as worded, including the defects of the code it names: each of those is itself a theorem (suffix _refuted), showing where the documented or expected behaviour fails."
 },
 "C79": {
  "status": "proved",
  "note": "The statement is proved as worded, including the defects of the code it names: each of those is itself a theorem (suffix _refuted), showing where the documented or expected behaviour fails."
 },
 "C80": {
  "status": "proved",
  "note": "The statement is proved as worded, including the defects of the code it names: each of those is itself a theorem (suffix _refuted), showing where the documented or expected behaviour fails."
 },
 "C81": {
  "status": "proved",
  "note": "The statement is proved as worded, including the defects of the code it names: each of those is itself a theorem (suffix _refuted), showing where the documented or expected behaviour fails."
 },
 "C82": {
  "status": "proved",
  "note": "The statement is proved as worded, including the defects of the code it names: each of those is itself a theorem (suffix _refuted), showing where the documented or expected behaviour fails."
 },
 "C83": {
  "status": "proved",
  "note": "The statement is proved as worded, including the defects of the code it names: each of those is itself a theorem (suffix _refuted), showing where the documented or expected behaviour fails."
 },
 "C84": {
  "status": "proved",
  "note": "The statement is proved as worded, including the defects of the code it names: each of those is itself a theorem (suffix _refuted), showing where the documented or expected behaviour fails."
 },
 "C85": {
  "status": "proved",
  "note": "The statement is proved as worded, including the defects of the code it names: each of those is itself a theorem (suffix _refuted), showing where the documented or expected behaviour fails."
 },
 "C86": {
  "status": "proved",
  "note": "The statement is proved as worded, including the defects of the code it names: each of those is itself a theorem (suffix _refuted), showing where the documented or expected behaviour fails."
 },
 "C87": {
  "status": "proved",
  "note": "The statement is proved as worded, including the defects of the code it names: each of those is itself a theorem (suffix _refuted), showing where the documented or expected behaviour fails."
 },
 "C88": {
  "status": "proved",
  "note": "The statement is proved as worded, including the defects of the code it names: each of those is itself a theorem (suffix _refuted), showing where the documented or expected behaviour fails."
 },
 "C89": {
  "status": "proved",
  "note": "The statement is proved as worded, including the defects of the code it names: each of those is itself a theorem (suffix _refuted), showing where the documented or expected behaviour fails."
 },
 "C90": {
  "status": "proved",
  "note": "The statement is proved as worded, including the defects of the code it names: each of those is itself a theorem (suffix _refuted), showing where the documented or expected behaviour fails."
 },
 "C91": {
  "status": "proved",
  "note": "The statement is proved as worded, including the defects of the code it names: each of those is itself a theorem (suffix _refuted), showing where the documented or expected behaviour fails."
 },
 "C92": {
  "status": "proved",
  "note": "The statement is proved as worded, including the defects of the code it names: each of those is itself a theorem (suffix _refuted), showing where the documented or expected behaviour fails."
 },
 "C93": {
  "status": "proved",
  "note": "The statement is proved as worded, including the defects of the code it names: each of those is itself a theorem (suffix _refuted), showing where the documented or expected behaviour fails."
 },
 "C94": {
  "status": "proved",
  "note": "The statement is proved as worded, including the defects of the code it names: each of those is itself a theorem (suffix _refuted), showing where the documented or expected behaviour fails."
 }
}