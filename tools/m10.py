MUTS=[]
def m(i,f,d,e,c,*eds): MUTS.append({'id':i,'file':f,'def':d,'edit':e,'claims':c.split(),'edits':list(eds)})
m('SY01','Parser','p_expect','found and expected swapped in the message','C93',('p_push_error (PExpected k c)','p_push_error (PExpected c k)'))
m('SY04','Grammar','method_call_expr','missing call arguments reported as a missing name','C93',('p_error "Expected call arguments"','p_error "expected a name"'))
m('SY07','Grammar','table_correct','a missing comma reported as a missing name','C93',('"Failed to find comma or closing bracket"','"expected a name"'))
m('SY11','Grammar','param_list','something after a vararg reported as a missing name','C93',('"Nothing can be after a vararg"','"expected a name"'))
